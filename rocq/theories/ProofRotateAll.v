(** rotate (rotate.hpp) on ranges of any length: it always permutes the bits of the
    range, and exactly for the sizes of [quotients_fit] in the right way. *)
From Coq Require Import ZArith Bool List Lia.
From Coq Require Import ZifyBool.
From Verif Require Import Base WordOps IterModel AlgModel ShiftModel SwapModel
  RotateModel Spec SpecRotate
  ProofBase ProofIter ProofWord ProofAlg1 ProofTransform ProofShift ProofSwap
  ProofSwapOver HwyAlgModel ProofWith ProofRotate.
Import ListNotations.
Open Scope Z_scope.
Ltac Zify.zify_post_hook ::= idtac.

(** Bit [i] of [A, A+n) becomes the former bit [s i]. *)
Definition moves (w : Z) (m m' : mem) (A n : Z) (s : Z -> Z) : Prop :=
  updated w m m' A (A + n) (fun i => bit w m (s i)).

(** [s] permutes [A, A+n). *)
Definition perm (A n : Z) (s : Z -> Z) : Prop :=
  (forall i, A <= i < A + n -> A <= s i < A + n) /\
  (forall i j, A <= i < A + n -> A <= j < A + n -> s i = s j -> i = j).

(** First [s1] on [A, A+n), then [s2] on the part [B, B+l). *)
Definition comp (B l : Z) (s1 s2 : Z -> Z) (i : Z) : Z :=
  s1 (if inr B (B + l) i then s2 i else i).

Lemma comp_in : forall B l s1 s2 i, B <= i < B + l -> comp B l s1 s2 i = s1 (s2 i).
Proof. intros B l s1 s2 i H. unfold comp. bsplit. reflexivity. Qed.

Lemma comp_out : forall B l s1 s2 i, i < B \/ B + l <= i -> comp B l s1 s2 i = s1 i.
Proof. intros B l s1 s2 i H. unfold comp. bsplit; reflexivity. Qed.

Lemma perm_comp : forall A n B l s1 s2, A <= B -> B + l <= A + n ->
  perm A n s1 -> perm B l s2 -> perm A n (comp B l s1 s2).
Proof.
  intros A n B l s1 s2 HA HB (P1 & P2) (R1 & R2).
  assert (Hin : forall i, A <= i < A + n ->
    A <= (if inr B (B + l) i then s2 i else i) < A + n).
  { intros i Hi. destruct (inr B (B + l) i) eqn:E; unfold inr in E; [|lia].
    specialize (R1 i ltac:(lia)). lia. }
  split.
  - intros i Hi. apply P1, Hin, Hi.
  - intros i j Hi Hj Hs. apply P2 in Hs; [|apply Hin, Hi|apply Hin, Hj].
    destruct (inr B (B + l) i) eqn:Ei; destruct (inr B (B + l) j) eqn:Ej;
      unfold inr in Ei, Ej.
    + apply R2; [lia|lia|exact Hs].
    + specialize (R1 i ltac:(lia)). lia.
    + specialize (R1 j ltac:(lia)). lia.
    + exact Hs.
Qed.

Lemma moves_comp : forall w m m1 m2 A n B l s1 s2, A <= B -> B + l <= A + n ->
  perm B l s2 -> moves w m m1 A n s1 -> moves w m1 m2 B l s2 ->
  moves w m m2 A n (comp B l s1 s2).
Proof.
  intros w m m1 m2 A n B l s1 s2 HA HB (R1 & _) (A1 & A2 & A3) (B1 & B2 & B3).
  split; [assumption|]. split; [eapply same_dom_trans; eassumption|].
  intros i. rewrite B3, !A3. unfold comp.
  destruct (inr B (B + l) i) eqn:Ei; unfold inr in Ei.
  - specialize (R1 i ltac:(lia)). bsplit. reflexivity.
  - reflexivity.
Qed.

(** The permutations of the two kinds of rounds. *)
Definition up_map (A k t i : Z) : Z :=
  if i <? A + t then i + k else A + (i - A) mod k.
Definition down_map (E k t i : Z) : Z :=
  if E - t <=? i then i - k else E - k + (i - E) mod k.

Lemma mod_window : forall k x y, 0 < k -> - k < x - y < k -> x mod k = y mod k -> x = y.
Proof.
  intros k x y Hk Hd H.
  pose proof (Z.div_mod x k ltac:(lia)) as Hx. pose proof (Z.div_mod y k ltac:(lia)) as Hy.
  rewrite H in Hx. set (a := x / k) in *. set (b := y / k) in *. set (c := y mod k) in *.
  clearbody a b c. clear H. assert (a = b) by nia. subst. reflexivity.
Qed.

Lemma perm_up : forall A k t, 0 < k -> 0 <= t -> perm A (t + k) (up_map A k t).
Proof.
  intros A k t Hk Ht. unfold up_map. split.
  - intros i Hi. destruct (Z.ltb_spec i (A + t)); [lia|].
    pose proof (Z.mod_pos_bound (i - A) k Hk). lia.
  - intros i j Hi Hj.
    pose proof (Z.mod_pos_bound (i - A) k Hk). pose proof (Z.mod_pos_bound (j - A) k Hk).
    destruct (Z.ltb_spec i (A + t)); destruct (Z.ltb_spec j (A + t)); try lia.
    intros Hs. assert ((i - A) mod k = (j - A) mod k) as Hm by lia.
    apply mod_window in Hm; lia.
Qed.

Lemma perm_down : forall E k t, 0 < k -> 0 <= t -> perm (E - t - k) (t + k) (down_map E k t).
Proof.
  intros E k t Hk Ht. unfold down_map. split.
  - intros i Hi. destruct (Z.leb_spec (E - t) i); [lia|].
    pose proof (Z.mod_pos_bound (i - E) k Hk). lia.
  - intros i j Hi Hj.
    pose proof (Z.mod_pos_bound (i - E) k Hk). pose proof (Z.mod_pos_bound (j - E) k Hk).
    destruct (Z.leb_spec (E - t) i); destruct (Z.leb_spec (E - t) j); try lia.
    intros Hs. assert ((i - E) mod k = (j - E) mod k) as Hm by lia.
    apply mod_window in Hm; lia.
Qed.

Lemma moves_up : forall w m m' A k t, 0 < k -> 0 <= t -> slid w m m' A k t ->
  moves w m m' A (t + k) (up_map A k t).
Proof.
  intros w m m' A k t Hk Ht (A1 & A2 & A3).
  split; [assumption|]. split; [assumption|]. intros i. rewrite A3. unfold up_map.
  bsplit; reflexivity.
Qed.

Lemma moves_down : forall w m m' E k t, 0 < k -> 0 <= t -> slid_down w m m' E k t ->
  moves w m m' (E - t - k) (t + k) (down_map E k t).
Proof.
  intros w m m' E k t Hk Ht (A1 & A2 & A3).
  split; [assumption|]. split; [assumption|]. intros i. rewrite A3. unfold down_map.
  bsplit; reflexivity.
Qed.

Lemma perm_rotl : forall A n k, 0 <= k < n -> perm A n (rotl_from A n k).
Proof.
  intros A n k Hk. unfold rotl_from. split.
  - intros i Hi. destruct (Z.ltb_spec (i + k) (A + n)); lia.
  - intros i j Hi Hj. destruct (Z.ltb_spec (i + k) (A + n));
      destruct (Z.ltb_spec (j + k) (A + n)); lia.
Qed.

(** A permutation of a larger range that is the identity outside a smaller one. *)
Lemma moves_wider : forall w m m' A n B l s, A <= B -> B + l <= A + n ->
  moves w m m' B l s -> moves w m m' A n (comp B l (fun i => i) s).
Proof.
  intros w m m' A n B l s HA HB (A1 & A2 & A3).
  split; [assumption|]. split; [assumption|]. intros i. rewrite A3. unfold comp.
  bsplit; reflexivity.
Qed.

Lemma perm_wider : forall A n B l s, A <= B -> B + l <= A + n -> perm B l s ->
  perm A n (comp B l (fun i => i) s).
Proof. intros. apply perm_comp; try assumption. split; auto. Qed.

(** One round when the left part is the shorter one. *)
Lemma wp_up_round : forall sl sr pl w f p n k r m (Q : iter -> mem -> Prop),
  let A := addr w p in
  valid_w w -> valid_it w p -> wf_mem w m -> w < k < n - k -> n <= 2 ^ 62 ->
  mapped w m A (A + n) ->
  (forall p2 m2, valid_it w p2 -> addr w p2 = A + (n - k) ->
     slid w m m2 A k (n - k) ->
     wp (if n mod k =? 0 then ret r else rot_loop_with sl sr pl w f p2 k (k - n mod k) r) m2 Q) ->
  wp (rot_loop_with sl sr pl w (S f) p n k r) m Q.
Proof.
  intros sl sr pl w f p n k r m Q A Hw Hp Hwf Hk Hmax Hm HQ.
  pose proof (valid_pos w Hw) as Hwp.
  cbn [rot_loop_with]. destruct (Z.ltb_spec k (n - k)) as [C1|C1]; [|lia].
  destruct (Z.leb_spec k w) as [C2|C2]; [lia|].
  apply wp_bind, wp_iadd; try assumption; [lia|]. intros q Hq1 Haq.
  assert (Hquot : Z.quot (n - k) k = (n - k) / k) by (apply Z.quot_div_nonneg; lia).
  rewrite Hquot.
  assert (Hd : 0 <= (n - k) / k) by (apply Z.div_pos; lia).
  pose proof (Z.div_mod (n - k) k ltac:(lia)) as Hdm.
  pose proof (Z.mod_pos_bound (n - k) k ltac:(lia)) as Hmb.
  assert (Hc : 0 <= wrap 32 ((n - k) / k) <= (n - k) / k).
  { unfold wrap. split; [apply Z.mod_pos_bound; lia|]. apply Z.mod_le; lia. }
  set (c := wrap 32 ((n - k) / k)) in *.
  assert (Hck : 0 <= c * k <= n - k) by nia.
  clearbody c.
  rewrite (wrap_small 64) by lia.
  apply wp_bind, (wp_rot_up pl w (Z.to_nat c) p q k A 0 m); try assumption;
    rewrite ?Z2Nat.id by lia; try lia.
  { eapply mapped_sub; [exact Hm|lia|lia]. }
  { apply slid_refl; [assumption|lia]. }
  intros p1 q1 m1 Hp1 Hq2 Hap1 Haq1 S1.
  rewrite Z.add_0_l in *.
  assert (Hm1 : mapped w m1 A (A + n)) by (eapply slid_mapped; eassumption).
  apply wp_bind, wp_iadd; try assumption; [lia|]. intros e He Hae.
  apply wp_bind, (wp_swap_ranges_over pl w _ _ _ m1 k); try assumption; try lia.
  { apply S1. }
  { eapply mapped_sub; [exact Hm1|lia|lia]. }
  intros r' m2 _ _ S2.
  replace (addr w e - addr w p1) with (n - k - c * k) in S2 by lia. rewrite Hap1 in S2.
  assert (S3 : slid w m m2 A k (n - k)).
  { replace (n - k) with (c * k + (n - k - c * k)) by lia.
    eapply slid_app; [| | |exact S1|exact S2]; lia. }
  apply wp_bind, wp_iadd; try assumption; [lia|]. intros p2 Hp2 Hap2.
  apply wp_bind, wp_iadd; try assumption; [lia|]. intros q2 Hq3 Haq2.
  rewrite Z.rem_mod_nonneg by lia. apply HQ; [assumption|lia|exact S3].
Qed.

(** One round when the right part is not the longer one. *)
Lemma wp_down_round : forall sl sr pl w f p n k r m (Q : iter -> mem -> Prop),
  let A := addr w p in let k1 := n - k in let c := wrap 32 ((n - k1) / k1) in
  valid_w w -> valid_it w p -> wf_mem w m -> w < k1 <= k -> n <= 2 ^ 62 ->
  mapped w m A (A + n) ->
  (forall p2 m1 m2, valid_it w p2 -> addr w p2 = A ->
     slid_down w m m1 (A + n) k1 (c * k1) ->
     slid w m1 m2 A k1 (n - k1 - c * k1) ->
     wp (if n mod k1 =? 0 then ret r else rot_loop_with sl sr pl w f p2 k1 (n mod k1) r) m2 Q) ->
  wp (rot_loop_with sl sr pl w (S f) p n k r) m Q.
Proof.
  intros sl sr pl w f p n k r m Q A k1 c Hw Hp Hwf Hk Hmax Hm HQ.
  pose proof (valid_pos w Hw) as Hwp.
  cbn [rot_loop_with]. destruct (Z.ltb_spec k (n - k)) as [C1|C1]; [unfold k1 in *; lia|].
  fold k1. destruct (Z.leb_spec k1 w) as [C2|C2]; [lia|].
  assert (Hk1 : k1 = n - k) by reflexivity. clearbody k1.
  apply wp_bind, wp_iadd; try assumption; [lia|]. intros q Hq1 Haq.
  apply wp_bind, wp_isub; try assumption; [lia|]. intros s Hs Has.
  assert (Hquot : Z.quot (n - k1) k1 = (n - k1) / k1) by (apply Z.quot_div_nonneg; lia).
  rewrite Hquot.
  assert (Hd : 0 <= (n - k1) / k1) by (apply Z.div_pos; lia).
  pose proof (Z.div_mod (n - k1) k1 ltac:(lia)) as Hdm.
  pose proof (Z.mod_pos_bound (n - k1) k1 ltac:(lia)) as Hmb.
  assert (Hc : 0 <= c <= (n - k1) / k1).
  { unfold c, wrap. split; [apply Z.mod_pos_bound; lia|]. apply Z.mod_le; lia. }
  fold c.
  assert (Hck : 0 <= c * k1 <= n - k1) by nia.
  clearbody c. rewrite (wrap_small 64) by lia.
  set (E := A + n) in *.
  assert (HE : E = A + n) by reflexivity. clearbody E.
  assert (HA : A = addr w p) by reflexivity. clearbody A.
  apply wp_bind, (wp_rot_down pl w (Z.to_nat c) s q k1 E 0 m); try assumption;
    rewrite ?Z2Nat.id by lia; try lia.
  { eapply mapped_sub; [exact Hm|lia|lia]. }
  { apply slid_down_refl; [assumption|lia]. }
  intros p1 q1 m1 Hp1 Hq2 Hap1 Haq1 S1.
  rewrite Z.add_0_l in *.
  assert (Hm1 : mapped w m1 A E) by (eapply slid_down_mapped; eassumption).
  apply wp_bind, wp_isub; try assumption; [lia|]. intros p2 Hp2 Hap2.
  apply wp_bind, wp_isub; try assumption; [lia|]. intros q2 Hq3 Haq2.
  apply wp_bind, wp_iadd; try assumption; [lia|]. intros e He Hae.
  apply wp_bind, (wp_swap_ranges_over pl w _ _ _ m1 k1); try assumption; try lia.
  { apply S1. }
  { eapply mapped_sub; [exact Hm1|lia|lia]. }
  intros r' m2 _ _ S2.
  replace (addr w e - addr w p2) with (n - k1 - c * k1) in S2 by lia.
  replace (addr w p2) with A in S2 by lia.
  rewrite Z.rem_mod_nonneg by lia. eapply HQ; [assumption|lia|exact S1|exact S2].
Qed.

(** The rounds, when a quotient does not fit: a permutation, but a wrong one. *)
Lemma rot_loop_bad : forall w fuel A n k, valid_w w -> w < n -> 0 < k < n ->
  n < 2 ^ Z.of_nat fuel -> n <= 2 ^ 62 -> quotients_fit fuel w k (n - k) = false ->
  exists s, perm A n s /\ (exists i, A <= i < A + n /\ s i <> rotl_from A n k i) /\
    forall m0 A0 A1 sl sr pl, good_left pl w sl -> good_right m0 A0 A1 pl w sr ->
      A0 <= A -> A + n <= A1 ->
      forall p m r (Q : iter -> mem -> Prop), same_dom m0 m -> valid_it w p -> addr w p = A ->
      wf_mem w m -> mapped w m A (A + n) ->
      (forall m', moves w m m' A n s -> Q r m') ->
      wp (rot_loop_with sl sr pl w fuel p n k r) m Q.
Proof.
  intros w fuel. induction fuel as [|f IH]; intros A n k Hw Hn Hk Hf Hmax Hq;
    pose proof (valid_pos w Hw) as Hwp; [discriminate|].
  assert (Hpow : 2 ^ Z.of_nat (S f) = 2 * 2 ^ Z.of_nat f).
  { rewrite Nat2Z.inj_succ, Z.pow_succ_r by lia. reflexivity. }
  cbn [quotients_fit] in Hq.
  destruct (Z.leb_spec k w) as [C1|C1] in Hq; [discriminate|].
  destruct (Z.leb_spec (n - k) w) as [C2|C2] in Hq; [discriminate|]. cbn [orb] in Hq.
  destruct (Z.ltb_spec k (n - k)) as [C3|C3] in Hq.
  - (* up *)
    assert (Hrm : (n - k) mod k = n mod k).
    { replace (n - k) with (n + (-1) * k) by lia. apply Z_mod_plus_full. }
    rewrite Hrm in Hq. destruct (Z.eqb_spec (n mod k) 0) as [C4|C4]; [discriminate|].
    cbn [orb] in Hq.
    pose proof (Z.mod_pos_bound n k ltac:(lia)) as Hmb.
    pose proof (Z.div_mod n k ltac:(lia)) as Hdm.
    set (rm := n mod k) in *.
    destruct (IH (A + (n - k)) k (k - rm)) as (s & Ps & (i & Hi & Hne) & Hrun);
      try assumption; try lia.
    { replace (k - (k - rm)) with rm by lia. exact Hq. }
    exists (comp (A + (n - k)) k (up_map A k (n - k)) s). split; [|split].
    + apply perm_comp; [lia|lia| |assumption].
      replace n with ((n - k) + k) at 1 by lia. apply perm_up; lia.
    + exists i. split; [lia|]. rewrite comp_in by lia. intros He. apply Hne.
      destruct Ps as (P1 & _). specialize (P1 i ltac:(lia)).
      unfold up_map, rotl_from in *.
      destruct (Z.ltb_spec (s i) (A + (n - k))) as [D1|D1] in He; [lia|].
      destruct (Z.ltb_spec (i + k) (A + n)) as [D2|D2] in He; [lia|].
      assert (Hcorrect : forall j, A + (n - k) <= j < A + (n - k) + k ->
        (j - A) mod k = i + k - n - A -> j = s i).
      { intros j Hj Hjm. enough (j - A = s i - A) by lia.
        apply (mod_window k); lia. }
      symmetry. set (cc := n / k) in *. clearbody cc.
      destruct (Z.ltb_spec (i + (k - rm)) (A + (n - k) + k)) as [D3|D3];
        apply Hcorrect; try lia.
      * replace (i + (k - rm) - A) with ((i + k - n - A) + cc * k) by lia.
        apply mod_uniq. lia.
      * replace (i + (k - rm) - k - A) with ((i + k - n - A) + (cc - 1) * k) by lia.
        apply mod_uniq. lia.
    + intros m0 A0 A1 sl sr pl GL GR HA0 HA1 p m r Q Hsd Hp Ha Hwf Hm HQ.
      apply wp_up_round; rewrite ?Ha; try assumption; try lia.
      intros p2 m2 Hp2 Ha2 S. fold rm.
      destruct (Z.eqb_spec rm 0) as [C5|C5]; [lia|].
      assert (Mv : moves w m m2 A n (up_map A k (n - k))).
      { replace n with ((n - k) + k) at 1 by lia. apply moves_up; [lia|lia|exact S]. }
      apply (Hrun m0 A0 A1 sl sr pl GL GR); try assumption; try lia;
        [eapply same_dom_trans; [exact Hsd|apply S]|apply S| |].
      { eapply mapped_sub; [eapply slid_mapped; [exact S|exact Hm]|lia|lia]. }
      intros m3 R. apply HQ. eapply moves_comp; [| |exact Ps|exact Mv|exact R]; lia.
  - (* down *)
    set (k1 := n - k) in *. assert (Hk1 : k = n - k1) by (unfold k1; lia).
    clearbody k1. subst k.
    assert (Hrm : (n - k1) mod k1 = n mod k1).
    { replace (n - k1) with (n + (-1) * k1) by lia. apply Z_mod_plus_full. }
    rewrite Hrm in Hq.
    pose proof (Z.mod_pos_bound n k1 ltac:(lia)) as Hmb.
    pose proof (Z.div_mod n k1 ltac:(lia)) as Hdm.
    assert (Hquo : (n - k1) / k1 = n / k1 - 1).
    { replace (n - k1) with (n + (-1) * k1) by lia. rewrite Z_div_plus_full by lia. lia. }
    set (rm := n mod k1) in *. set (cc := n / k1) in *. rewrite Hquo in Hq.
    set (c := wrap 32 (cc - 1)).
    assert (Hcc : 0 <= cc - 1) by (rewrite <- Hquo; apply Z.div_pos; lia).
    assert (Hc : 0 <= c <= cc - 1).
    { unfold c, wrap. split; [apply Z.mod_pos_bound; lia|]. apply Z.mod_le; lia. }
    destruct (Z.ltb_spec (cc - 1) (2 ^ 32)) as [C4|C4] in Hq; cbn [andb] in Hq.
    + (* the quotient of this round fits *)
      destruct (Z.eqb_spec rm 0) as [C5|C5]; [discriminate|]. cbn [orb] in Hq.
      assert (Ec : c = cc - 1) by (apply wrap_small; lia). clearbody c. subst c.
      destruct (IH A k1 rm) as (s & Ps & (i & Hi & Hne) & Hrun); try assumption; try lia.
      assert (Erem : n - k1 - (cc - 1) * k1 = rm) by lia.
      exists (comp A k1 (down_map (A + n) k1 (n - k1)) s). split; [|split].
      * apply perm_comp; [lia|lia| |assumption].
        pose proof (perm_down (A + n) k1 (n - k1) ltac:(lia) ltac:(lia)) as X.
        replace (A + n - (n - k1) - k1) with A in X by lia.
        replace (n - k1 + k1) with n in X by lia. exact X.
      * exists i. split; [lia|]. rewrite comp_in by lia. intros He. apply Hne.
        destruct Ps as (P1 & _). specialize (P1 i ltac:(lia)).
        unfold down_map, rotl_from in *.
        destruct (Z.leb_spec (A + n - (n - k1)) (s i)) as [D1|D1] in He; [lia|].
        destruct (Z.ltb_spec (i + (n - k1)) (A + n)) as [D2|D2] in He; [|lia].
        assert (Hcorrect : forall j, A <= j < A + k1 ->
          (j - (A + n)) mod k1 = i - A -> j = s i).
        { intros j Hj Hjm. enough (j - (A + n) = s i - (A + n)) by lia.
          apply (mod_window k1); lia. }
        symmetry. clearbody cc.
        destruct (Z.ltb_spec (i + rm) (A + k1)) as [D3|D3]; apply Hcorrect; try lia.
        -- replace (i + rm - (A + n)) with ((i - A) + (- cc) * k1) by lia.
           apply mod_uniq. lia.
        -- replace (i + rm - k1 - (A + n)) with ((i - A) + (- cc - 1) * k1) by lia.
           apply mod_uniq. lia.
      * intros m0 A0 A1 sl sr pl GL GR HA0 HA1 p m r Q Hsd Hp Ha Hwf Hm HQ.
        apply wp_down_round; rewrite ?Ha; try assumption; try lia;
          replace (n - (n - k1)) with k1 by lia; try lia.
        intros p2 m1 m2 Hp2 Ha2 S1 S2. fold rm.
        rewrite Hquo, wrap_small in S1, S2 by lia. rewrite Erem in S2.
        destruct (Z.eqb_spec rm 0) as [C6|C6]; [lia|].
        assert (S3 : slid_down w m m2 (A + n) k1 (n - k1)).
        { replace (n - k1) with ((cc - 1) * k1 + rm) by lia.
          eapply slid_down_step; [| | |exact S1|]; try lia.
          replace (A + n - (cc - 1) * k1 - k1 - rm) with A by lia.
          replace (A + n - (cc - 1) * k1 - rm) with (A + k1) by lia.
          destruct S2 as (T1 & T2 & T3). split; [assumption|]. split; [assumption|].
          intros j. rewrite T3.
          destruct (Z.ltb_spec (j - A) k1) as [D|D].
          - bsplit; try (f_equal; lia); try reflexivity.
            rewrite Z.mod_small by lia. f_equal. lia.
          - bsplit; try (f_equal; lia); try reflexivity.
            replace (j - A) with ((j - A - k1) + 1 * k1) by lia.
            rewrite mod_uniq by lia. f_equal. lia. }
        assert (Mv : moves w m m2 A n (down_map (A + n) k1 (n - k1))).
        { pose proof (moves_down w m m2 (A + n) k1 (n - k1) ltac:(lia) ltac:(lia) S3) as X.
          replace (A + n - (n - k1) - k1) with A in X by lia.
          replace (n - k1 + k1) with n in X by lia. exact X. }
        apply (Hrun m0 A0 A1 sl sr pl GL GR); try assumption; try lia;
          [eapply same_dom_trans; [exact Hsd|apply S3]|apply S3| |].
        { eapply mapped_sub; [eapply slid_down_mapped; [exact S3|exact Hm]|lia|lia]. }
        intros m3 R. apply HQ. eapply moves_comp; [| |exact Ps|exact Mv|exact R]; lia.
    + (* it does not *)
      clear Hq IH.
      assert (Hck : c * k1 + 2 ^ 32 * k1 <= (cc - 1) * k1).
      { assert (c + 2 ^ 32 <= cc - 1).
        { unfold c, wrap. pose proof (Z.div_mod (cc - 1) (2 ^ 32) ltac:(lia)).
          assert (1 <= (cc - 1) / 2 ^ 32) by (apply Z.div_le_lower_bound; lia). lia. }
        nia. }
      assert (Hc0 : 0 <= c * k1) by nia.
      set (rem := n - k1 - c * k1).
      set (s0 := comp A (rem + k1) (comp (A + rem) (c * k1 + k1) (fun i => i)
                   (down_map (A + n) k1 (c * k1))) (up_map A k1 rem)).
      assert (P0 : perm A n s0).
      { apply perm_comp; [lia|lia| |apply perm_up; lia].
        apply perm_wider; [lia|lia|].
        replace (A + rem) with (A + n - c * k1 - k1) by (unfold rem; lia).
        apply perm_down; lia. }
      assert (Hs0 : forall i, A <= i < A + k1 -> s0 i = i + k1).
      { intros i Hi. unfold s0. rewrite comp_in by lia.
        unfold up_map. destruct (Z.ltb_spec i (A + rem)) as [D|D]; [|lia].
        rewrite comp_out by lia. reflexivity. }
      set (s := if rm =? 0 then s0 else comp A k1 s0 (rotl_from A k1 rm)).
      exists s. split; [|split].
      * unfold s. destruct (rm =? 0); [exact P0|].
        apply perm_comp; [lia|lia|exact P0|]. apply perm_rotl. lia.
      * exists A. split; [lia|].
        assert (Hgoal : rotl_from A n (n - k1) A = A + (n - k1)).
        { unfold rotl_from. destruct (Z.ltb_spec (A + (n - k1)) (A + n)); lia. }
        rewrite Hgoal. unfold s. destruct (Z.eqb_spec rm 0) as [D|D].
        -- rewrite Hs0 by lia. lia.
        -- rewrite comp_in by lia.
           assert (Hrr : rotl_from A k1 rm A = A + rm).
           { unfold rotl_from. destruct (Z.ltb_spec (A + rm) (A + k1)); lia. }
           rewrite Hrr, Hs0 by lia. lia.
      * intros m0 A0 A1 sl sr pl GL GR HA0 HA1 p m r Q Hsd Hp Ha Hwf Hm HQ.
        apply wp_down_round; rewrite ?Ha; try assumption; try lia;
          replace (n - (n - k1)) with k1 by lia; try lia.
        intros p2 m1 m2 Hp2 Ha2 S1 S2. fold rm.
        rewrite Hquo in S1, S2. fold c in S1, S2. fold rem in S2.
        assert (Mv1 : moves w m m1 A n (comp (A + rem) (c * k1 + k1) (fun i => i)
                   (down_map (A + n) k1 (c * k1)))).
        { apply moves_wider; [lia|lia|].
          replace (A + rem) with (A + n - c * k1 - k1) by (unfold rem; lia).
          apply moves_down; [lia|lia|exact S1]. }
        assert (Mv : moves w m m2 A n s0).
        { eapply moves_comp; [| | |exact Mv1|]; try lia.
          - apply perm_up; lia.
          - apply moves_up; [lia|lia|exact S2]. }
        destruct (Z.eqb_spec rm 0) as [D|D].
        { apply wp_ret, HQ. exact Mv. }
        apply (wp_rot_loop_with m0 A0 A1); try assumption; try lia.
        { eapply same_dom_trans; [exact Hsd|apply Mv]. }
        { apply Mv. }
        { apply fits_small; lia. }
        { rewrite Ha2. eapply mapped_sub; [eapply mapped_dom; [exact Hm|apply Mv]|lia|lia]. }
        intros m3 R. apply HQ. unfold s.
        eapply moves_comp; [| |apply perm_rotl|exact Mv|]; try lia.
        rewrite Ha2 in R. exact R.
Qed.

Lemma inr_in : forall lo hi i, lo <= i < hi -> inr lo hi i = true.
Proof. intros lo hi i H. unfold inr. apply andb_true_iff. lia. Qed.

Lemma unfit_sizes : forall f w l r, 0 < w -> quotients_fit (S f) w l r = false ->
  w < l /\ w < r /\ l <> r.
Proof.
  intros f w l r Hw Hq. cbn [quotients_fit] in Hq.
  destruct (Z.leb_spec l w) as [C1|C1]; [discriminate|].
  destruct (Z.leb_spec r w) as [C2|C2]; [discriminate|].
  split; [lia|]. split; [lia|]. intros ->. cbn [orb] in Hq.
  rewrite Z.ltb_irrefl, Z.mod_same, Z.div_same in Hq by lia. discriminate.
Qed.

(** rotate on every valid call: a permutation, the right one exactly for the sizes
    that fit. *)
Lemma rotate_every_with : forall w first n_first last,
  valid_w w -> valid_it w first -> valid_it w n_first -> valid_it w last ->
  addr w first <= addr w n_first < addr w last ->
  addr w last - addr w first <= max_bits ->
  mask_fits w (ip first) (addr w last - addr w first) ->
  let A := addr w first in let n := addr w last - A in let k := addr w n_first - A in
  exists s, perm A n s /\
    (quotients_fit 64 w k (addr w last - addr w n_first) = true <->
     forall i, A <= i < A + n -> s i = rotl_from A n k i) /\
    (quotients_fit 64 w k (addr w last - addr w n_first) = false ->
     exists i, A <= i < A + n /\ s i <> rotl_from A n k i) /\
    forall sl sr p m, good_left p w sl -> good_right m (addr w first) (addr w last) p w sr ->
      wf_mem w m -> mapped w m A (A + n) ->
      exists r m', rotate_with sl sr p w first n_first last m = Ok (r, m') /\ valid_it w r /\
        addr w r = A + (addr w last - addr w n_first) /\
        updated w m m' A (A + n) (fun i => bit w m (s i)).
Proof.
  intros w first n_first last Hw Hf Hnf Hl Hlt Hmax Hmf A n k.
  pose proof (valid_pos w Hw) as Hwp. unfold max_bits in Hmax.
  destruct (quotients_fit 64 w k (addr w last - addr w n_first)) eqn:Hq.
  - exists (rotl_from A n k). split; [apply perm_rotl; unfold k, n, A; lia|].
    split; [split; [intros _ i Hi; reflexivity|intros _; reflexivity]|].
    split; [discriminate|]. intros sl sr p m GL GR Hwf Hm.
    assert (Hg : good_range w m first last).
    { repeat (split; [assumption|]). split; [unfold max_bits; lia|].
      replace (addr w last) with (A + n) by (unfold A, n; lia). exact Hm. }
    destruct (rotate_with_ok sl sr p w m first n_first last GL GR Hw Hwf Hg Hnf Hlt Hmf Hq)
      as (r & m' & E & V & Ar & U).
    exists r, m'. split; [exact E|]. split; [exact V|]. split; [exact Ar|].
    destruct U as (U1 & U2 & U3). split; [exact U1|]. split; [exact U2|].
    intros i. rewrite U3. cbv zeta. unfold rotl_from.
    replace (A + n) with (addr w last) by (unfold n, A; lia). reflexivity.
  - assert (Hlr : w < k /\ w < addr w last - addr w n_first /\ k <> addr w last - addr w n_first).
    { apply unfit_sizes with (f := 63%nat); [lia|exact Hq]. }
    destruct Hlr as (Hlw & Hrw & Hne).
    assert (HA : A = addr w first) by reflexivity.
    assert (Hn : n = addr w last - A) by reflexivity.
    assert (Hk : k = addr w n_first - A) by reflexivity.
    clearbody A n k.
    assert (Hq' : quotients_fit 64 w k (n - k) = false).
    { replace (n - k) with (addr w last - addr w n_first) by lia. exact Hq. }
    destruct (rot_loop_bad w 64 A n k) as (s & Ps & (i & Hi & Hbad) & Hrun);
      try assumption; try lia.
    exists s. split; [exact Ps|]. split.
    { split; [discriminate|]. intros Hs. exfalso. apply Hbad, Hs, Hi. }
    split; [intros _; exists i; split; assumption|].
    intros sl sr p m GL GR Hwf Hm. apply wp_exists.
    unfold rotate_with.
    apply wp_bind, wp_assert_viable; try assumption; [lia|].
    apply wp_bind, wp_assert_viable; try assumption; [lia|].
    apply wp_bind, wp_assert_viable; try assumption; [lia|].
    rewrite (ieq_addr w) by (assumption || lia).
    destruct (Z.eqb_spec (addr w first) (addr w n_first)) as [C1|C1]; [lia|].
    destruct (one_word first last) eqn:C2.
    { exfalso. unfold one_word in C2. apply Z.eqb_eq in C2.
      unfold valid_it, addr in *. rewrite <- C2 in *.
      destruct (Z.eqb_spec (ip last) 0); cbn [b2z] in *; lia. }
    apply wp_bind, wp_within; try assumption; [lia|].
    destruct (Z.leb_spec (addr w n_first - addr w first) w) as [C3|C3]; [lia|].
    apply wp_bind, wp_within; try assumption; [lia|].
    destruct (Z.leb_spec (addr w last - addr w n_first) w) as [C4|C4]; [lia|].
    unfold rotate_via_raw_with.
    wpl. rewrite idiff_eq by (assumption || lia). apply rwp_ok.
    wpl. rewrite idiff_eq by (assumption || lia). apply rwp_ok.
    replace (addr w n_first - addr w first) with k by lia.
    replace (addr w last - addr w first) with n by lia.
    destruct (Z.eqb_spec k (n - k)) as [C|C]; [lia|].
    wpl. rewrite idiff_eq by (assumption || lia). apply rwp_ok.
    apply wp_bind, wp_iadd; try assumption; [lia|]. intros r Hr Har.
    apply (Hrun m (addr w first) (addr w last) sl sr p GL GR); try assumption; try lia.
    { intros a. reflexivity. }
    intros m' R. split; [assumption|]. split; [lia|]. exact R.
Qed.

Lemma rotate_every : forall p w first n_first last,
  valid_w w -> valid_it w first -> valid_it w n_first -> valid_it w last ->
  addr w first <= addr w n_first < addr w last ->
  addr w last - addr w first <= max_bits ->
  mask_fits w (ip first) (addr w last - addr w first) ->
  let A := addr w first in let n := addr w last - A in let k := addr w n_first - A in
  exists s, perm A n s /\
    (quotients_fit 64 w k (addr w last - addr w n_first) = true <->
     forall i, A <= i < A + n -> s i = rotl_from A n k i) /\
    (quotients_fit 64 w k (addr w last - addr w n_first) = false ->
     exists i, A <= i < A + n /\ s i <> rotl_from A n k i) /\
    forall m, wf_mem w m -> mapped w m A (A + n) ->
      exists r m', rotate p w first n_first last m = Ok (r, m') /\ valid_it w r /\
        addr w r = A + (addr w last - addr w n_first) /\
        updated w m m' A (A + n) (fun i => bit w m (s i)).
Proof.
  intros p w first n_first last Hw Hf Hnf Hl Hlt Hmax Hmf A n k.
  destruct (rotate_every_with w first n_first last Hw Hf Hnf Hl Hlt Hmax Hmf)
    as (s & Ps & Hq & Hbad & Hrun).
  exists s. split; [exact Ps|]. split; [exact Hq|]. split; [exact Hbad|].
  intros m Hwf Hm. destruct (Hrun _ _ p m (good_left_scalar p w) (good_right_scalar m _ _ p w) Hwf Hm)
    as (r & m' & E & R).
  rewrite rotate_with_scalar in E. exists r, m'. split; [exact E|exact R].
Qed.

(** Memory with a single bit set. *)
Definition one_bit (w i : Z) : mem := fun a => Some (if a =? i / w then 2 ^ (i mod w) else 0).

Lemma one_bit_wf : forall w i, 0 < w -> wf_mem w (one_bit w i).
Proof.
  intros w i Hw a x H. unfold one_bit in H. injection H as <-.
  pose proof (Z.mod_pos_bound i w Hw).
  destruct (a =? i / w).
  - split; [apply Z.pow_nonneg; lia|]. apply Z.pow_lt_mono_r; lia.
  - split; [lia|]. apply pow_pos. lia.
Qed.

Lemma one_bit_bit : forall w i j, 0 < w -> bit w (one_bit w i) j = (j =? i).
Proof.
  intros w i j Hw. unfold bit, one_bit.
  pose proof (Z.mod_pos_bound i w Hw). pose proof (Z.mod_pos_bound j w Hw).
  pose proof (Z.div_mod i w ltac:(lia)). pose proof (Z.div_mod j w ltac:(lia)).
  destruct (Z.eqb_spec (j / w) (i / w)) as [E|E].
  - rewrite Z.pow2_bits_eqb by lia. rewrite E in *.
    destruct (Z.eqb_spec (i mod w) (j mod w)); destruct (Z.eqb_spec j i); try reflexivity; lia.
  - rewrite Z.testbit_0_l. destruct (Z.eqb_spec j i); [congruence|reflexivity].
Qed.

Lemma one_bit_mapped : forall w i lo hi, mapped w (one_bit w i) lo hi.
Proof. intros w i lo hi j Hj. unfold one_bit. discriminate. Qed.

Lemma rotate_exact : forall p w first n_first last,
  valid_w w -> valid_it w first -> valid_it w n_first -> valid_it w last ->
  addr w first <= addr w n_first < addr w last ->
  addr w last - addr w first <= max_bits ->
  mask_fits w (ip first) (addr w last - addr w first) ->
  (quotients_fit 64 w (addr w n_first - addr w first) (addr w last - addr w n_first) = true
   <->
   forall m, wf_mem w m -> good_range w m first last ->
   exists r m', rotate p w first n_first last m = Ok (r, m') /\ valid_it w r /\
     addr w r = addr w first + (addr w last - addr w n_first) /\
     updated w m m' (addr w first) (addr w last)
       (fun i => let j := i + (addr w n_first - addr w first) in
          bit w m (if j <? addr w last then j else j - (addr w last - addr w first)))).
Proof.
  intros p w first n_first last Hw Hf Hnf Hl Hlt Hmax Hmf.
  pose proof (valid_pos w Hw) as Hwp.
  split.
  { intros Hq m Hwf Hg. apply rotate_fit_ok; assumption. }
  intros Hall.
  destruct (rotate_every p w first n_first last Hw Hf Hnf Hl Hlt Hmax Hmf) as (s & (Ps & _) & Hq & _ & Hrun).
  apply Hq. intros i Hi. cbv zeta in Hi.
  destruct (Hrun (one_bit w (s i)) (one_bit_wf w (s i) ltac:(lia)) (one_bit_mapped w _ _ _))
    as (r & m' & E & _ & _ & _ & _ & U).
  destruct (Hall (one_bit w (s i)) (one_bit_wf w (s i) ltac:(lia)))
    as (r2 & m2 & E2 & _ & _ & _ & _ & U2).
  { repeat (split; [assumption|]). split; [lia|]. apply one_bit_mapped. }
  rewrite E in E2. injection E2 as -> ->. specialize (U i). rewrite U2 in U.
  cbv zeta in U. rewrite !inr_in in U by lia. rewrite !one_bit_bit, Z.eqb_refl in U by lia.
  unfold rotl_from.
  replace (addr w first + (addr w last - addr w first)) with (addr w last) by lia.
  symmetry. apply Z.eqb_eq. exact U.
Qed.

Lemma rotate_permutes : forall p w first n_first last,
  valid_w w -> valid_it w first -> valid_it w n_first -> valid_it w last ->
  addr w first <= addr w n_first < addr w last ->
  addr w last - addr w first <= max_bits ->
  mask_fits w (ip first) (addr w last - addr w first) ->
  exists s : Z -> Z,
    (forall i, addr w first <= i < addr w last -> addr w first <= s i < addr w last) /\
    (forall i j, addr w first <= i < addr w last -> addr w first <= j < addr w last ->
       s i = s j -> i = j) /\
    forall m, wf_mem w m -> good_range w m first last ->
    exists r m', rotate p w first n_first last m = Ok (r, m') /\ valid_it w r /\
      addr w r = addr w first + (addr w last - addr w n_first) /\
      updated w m m' (addr w first) (addr w last) (fun i => bit w m (s i)).
Proof.
  intros p w first n_first last Hw Hf Hnf Hl Hlt Hmax Hmf.
  destruct (rotate_every p w first n_first last Hw Hf Hnf Hl Hlt Hmax Hmf) as (s & (P1 & P2) & _ & _ & Hrun).
  replace (addr w first + (addr w last - addr w first)) with (addr w last) in * by lia.
  exists s. split; [exact P1|]. split; [exact P2|].
  intros m Hwf (_ & _ & _ & Hm). exact (Hrun m Hwf Hm).
Qed.

Lemma rotate_huge_wrong : forall w first n_first last,
  valid_w w -> valid_it w first -> valid_it w n_first -> valid_it w last ->
  addr w first <= addr w n_first < addr w last ->
  addr w last - addr w first <= max_bits ->
  mask_fits w (ip first) (addr w last - addr w first) ->
  quotients_fit 64 w (addr w n_first - addr w first) (addr w last - addr w n_first) = false ->
  exists m, wf_mem w m /\ good_range w m first last /\
  exists r m' i, rotate Strict17 w first n_first last m = Ok (r, m') /\
    addr w first <= i < addr w last /\
    bit w m' i <> bit w m (rotl_from (addr w first) (addr w last - addr w first)
                             (addr w n_first - addr w first) i).
Proof.
  intros w first n_first last Hw Hf Hnf Hl Hlt Hmax Hmf Hq.
  pose proof (valid_pos w Hw) as Hwp.
  destruct (rotate_every Strict17 w first n_first last Hw Hf Hnf Hl Hlt Hmax Hmf)
    as (s & (P1 & P2) & _ & Hbad & Hrun).
  cbv zeta in *. destruct (Hbad Hq) as (i & Hi & Hne).
  destruct (Hrun (one_bit w (s i)) (one_bit_wf w (s i) ltac:(lia)) (one_bit_mapped w _ _ _))
    as (r & m' & E & _ & _ & _ & _ & U).
  exists (one_bit w (s i)). split; [apply one_bit_wf; lia|].
  split; [repeat (split; [assumption|]); split; [lia|apply one_bit_mapped]|].
  exists r, m', i. split; [exact E|]. split; [lia|].
  rewrite U, inr_in, !one_bit_bit, Z.eqb_refl by lia.
  intros C. symmetry in C. apply Z.eqb_eq in C. apply Hne. symmetry. exact C.
Qed.

Lemma rotate_refuted : exists w m first n_first last,
  valid_w w /\ wf_mem w m /\ good_range w m first last /\ valid_it w n_first /\
  addr w first < addr w n_first < addr w last /\
  exists r m' i, rotate Strict17 w first n_first last m = Ok (r, m') /\
    addr w first <= i < addr w last /\
    bit w m' i <> bit w m (rotl_from (addr w first) (addr w last - addr w first)
                             (addr w n_first - addr w first) i).
Proof.
  assert (Hw : valid_w 8) by (left; reflexivity).
  assert (V1 : valid_it 8 (It 0 0)) by (unfold valid_it; cbn [ip]; lia).
  assert (V2 : valid_it 8 (It (2 ^ 33) 0)) by (unfold valid_it; cbn [ip]; lia).
  assert (V3 : valid_it 8 (It (2 ^ 33 + 2) 0)) by (unfold valid_it; cbn [ip]; lia).
  assert (Hq : quotients_fit 64 8 (addr 8 (It (2 ^ 33) 0) - addr 8 (It 0 0))
    (addr 8 (It (2 ^ 33 + 2) 0) - addr 8 (It (2 ^ 33) 0)) = false) by (vm_compute; reflexivity).
  assert (Hlt : addr 8 (It 0 0) < addr 8 (It (2 ^ 33) 0) < addr 8 (It (2 ^ 33 + 2) 0)).
  { unfold addr. cbn [ib ip]. lia. }
  destruct (rotate_huge_wrong 8 (It 0 0) (It (2 ^ 33) 0) (It (2 ^ 33 + 2) 0) Hw V1 V2 V3)
    as (m & Hwf & Hg & R).
  { split; [apply Z.lt_le_incl|]; apply Hlt. }
  { unfold addr, max_bits. cbn [ib ip]. lia. }
  { left. lia. }
  { exact Hq. }
  exists 8, m, (It 0 0), (It (2 ^ 33) 0), (It (2 ^ 33 + 2) 0).
  repeat (split; [assumption|]). exact R.
Qed.
