(** rotate within one word of 128 bits (rotate.hpp:224 computes a mask of 64 bits). *)
From Coq Require Import ZArith Bool List Lia ZifyBool.
From Verif Require Import Demo Base WordOps IterModel AlgModel ShiftModel SwapModel RotateModel Spec
  SpecRotate ProofBase ProofIter ProofWord ProofAlg1 ProofTransform ProofShift ProofSwap
  ProofSwapOver ProofRotate ProofRotateAll.
Import ListNotations.
Open Scope Z_scope.
Ltac Zify.zify_post_hook ::= idtac.

(** The bits at positions 64 and above are lost. *)
Lemma wp_rotate_cut : forall pl w first n_first last m (Q : iter -> mem -> Prop),
  let A := addr w first in let n := addr w last - A in let k := addr w n_first - A in
  valid_w w -> valid_it w first -> valid_it w n_first -> valid_it w last ->
  wf_mem w m -> one_word first last = true -> 0 < k <= n ->
  n < 64 -> ip first < 64 -> 64 < ip first + n -> mapped w m A (A + n) ->
  (forall r m', valid_it w r -> addr w r = A + (n - k) ->
     updated w m m' A (A + n) (fun i => let j := if i + k <? A + n then i + k else i + k - n in
       bit w m j && (j <? ib first * w + 64)) -> Q r m') ->
  wp (rotate_one_word pl w first n_first last) m Q.
Proof.
  intros pl w first n_first last m Q A n k Hw Hf Hnf Hl Hwf Hone Hk N64 P64 H64 Hm HQ.
  pose proof (valid_pos w Hw) as Hwp. pose proof (prom_ge w Hw) as Hpr.
  set (b := ib first) in *.
  set (lp := if ip last =? 0 then w else ip last).
  assert (Hlp : addr w last = b * w + lp /\ 0 < lp <= w).
  { unfold one_word in Hone. apply Z.eqb_eq in Hone. fold b in Hone.
    unfold valid_it in Hl. unfold lp, addr. destruct (Z.eqb_spec (ip last) 0) as [E|E];
      cbn [b2z] in Hone; nia. }
  assert (Hlw : lp < w).
  { assert (E : n = lp - ip first).
    { destruct Hlp as [Hlp1 _]. unfold n, A. rewrite Hlp1. unfold addr. fold b. lia. }
    unfold valid_w in Hw. lia. }
  assert (Hnp : ib n_first = b /\ ip n_first = ip first + k).
  { unfold k, n, A, addr in *. unfold valid_it in Hnf, Hf. fold b in Hk, Hlp |- *.
    destruct Hlp as [Hlp1 Hlp2]. rewrite Hlp1 in Hk. assert (ib n_first = b) by nia.
    split; [assumption|]. rewrite H. lia. }
  assert (HA : A = b * w + ip first) by reflexivity.
  assert (HA' : A = addr w first) by reflexivity.
  assert (Hn : n = addr w last - A) by reflexivity.
  assert (Hma : m b <> None).
  { apply (mapped_word w m A (A + n)); try assumption; unfold valid_it in Hf; lia. }
  unfold valid_it in Hf, Hnf.
  clearbody k n A. destruct Hlp as [Hlp1 Hlp2]. destruct Hnp as [Hnp1 Hnp2].
  assert (Hnl : n = lp - ip first) by lia.
  unfold rotate_one_word. fold b.
  destruct ((ip first =? 0) && (ip last =? 0)) eqn:E.
  { exfalso. lia. }
  fold lp. clearbody lp.
  rewrite (usub_small (ip n_first)), (usub_small lp (ip n_first)), (usub_small lp (ip first)) by lia.
  replace (ip n_first - ip first) with k by lia.
  replace (lp - ip n_first) with (n - k) by lia.
  replace (lp - ip first) with n by lia.
  wpl. rewrite (cshl_one pl 64) by (unfold valid_w; lia). apply rwp_ok.
  assert (Hp1 : 1 <= 2 ^ n) by (pose proof (pow_pos n); lia).
  assert (Hp2 : 2 ^ n < 2 ^ 64) by (apply Z.pow_lt_mono_r; lia).
  rewrite (wrap_small 64) by lia.
  assert (Emk : cshl pl 64 (2 ^ n - 1) (ip first) = Ok (wrap 64 (Z.shiftl (2 ^ n - 1) (ip first)))).
  { unfold cshl. change (prom 64) with 64. destruct (Z.leb_spec 0 (ip first)); [|lia].
    destruct (Z.ltb_spec (ip first) 64); [reflexivity|lia]. }
  wpl. rewrite Emk. apply rwp_ok. clear Emk.
  set (mk := wrap 64 (Z.shiftl (2 ^ n - 1) (ip first))).
  assert (Hmask : forall j, 0 <= j < w -> Z.testbit (wrap w mk) j = inr (ip first) 64 j).
  { intros j Hj. rewrite wrap_testbit by lia.
    destruct (Z.ltb_spec j w); [|lia]. cbn [andb].
    unfold mk. rewrite wrap_testbit, Z.shiftl_spec by lia.
    unfold inr. destruct (Z.leb_spec (ip first) j).
    - rewrite ones_testbit' by lia. cbn [andb]. lia.
    - rewrite Z.testbit_neg_r by lia. apply andb_false_r. }
  clearbody mk.
  apply wp_bind, (wp_load w); try assumption; try lia. intros x Hx Hbx.
  set (rt := Z.land x (wrap w mk)).
  assert (Hrt : 0 <= rt < 2 ^ w) by (apply land_range; lia).
  assert (Hrb : forall j, 0 <= j < w -> Z.testbit rt j = inr (ip first) 64 j && Z.testbit x j).
  { intros j Hj. unfold rt. rewrite Z.land_spec, Hmask by lia. apply andb_comm. }
  clearbody rt.
  wpl. apply rwp_cshr; [lia|]. wpl. apply rwp_cshl; try assumption; try lia.
  intros s Hs. wpl. apply rwp_bitblend; try assumption; try lia.
  { apply lor_range; [lia|apply wrap_range; lia|apply wrap_range; lia]. }
  intros v Hv Hvb.
  apply wp_bind, (wp_store_part w) with (lo := A) (hi := A + n)
    (f := fun i => let j := if i + k <? A + n then i + k else i + k - n in
       bit w m j && (j <? b * w + 64));
    try assumption; try lia.
  { intros j Hj. rewrite Hvb by lia. rewrite Z.lor_spec.
    rewrite shr_testbit, (shl_testbit w s rt (n - k)) by (assumption || lia).
    unfold inr. destruct (Z.leb_spec (ip first) j); [|].
    2: { destruct (Z.leb_spec A (b * w + j)); [lia|]. cbn [andb].
         rewrite Hbx by lia. f_equal. lia. }
    destruct (Z.leb_spec A (b * w + j)); [|lia]. cbn [andb].
    destruct (Z.ltb_spec j (ip first + n)).
    2: { destruct (Z.ltb_spec (b * w + j) (A + n)); [lia|].
         rewrite Hbx by lia. f_equal. lia. }
    destruct (Z.ltb_spec (b * w + j) (A + n)); [|lia].
    cbv zeta. destruct (Z.ltb_spec (b * w + j + k) (A + n)).
    - rewrite Hrb by lia. unfold inr.
      destruct (Z.leb_spec (ip first) (j + k)); [|lia]. cbn [andb].
      assert (Hz : Z.testbit rt (j - (n - k)) = false).
      { destruct (Z.ltb_spec (j - (n - k)) 0).
        - apply Z.testbit_neg_r. lia.
        - rewrite Hrb by lia. unfold inr.
          destruct (Z.leb_spec (ip first) (j - (n - k))); [lia|]. reflexivity. }
      rewrite Hz, orb_false_r. rewrite Hbx by lia. rewrite andb_comm. f_equal; [f_equal; lia|].
      destruct (Z.ltb_spec (j + k) 64), (Z.ltb_spec (b * w + j + k) (b * w + 64)); lia.
    - assert (Hz : Z.testbit rt (j + k) = false).
      { destruct (Z.ltb_spec (j + k) w).
        - rewrite Hrb by lia. unfold inr. destruct (Z.ltb_spec (j + k) 64); [lia|].
          rewrite andb_false_r. reflexivity.
        - apply (testbit_high w); lia. }
      rewrite Hz, orb_false_l. rewrite Hrb by lia. unfold inr.
      destruct (Z.leb_spec (ip first) (j - (n - k))); [|lia]. cbn [andb].
      rewrite Hbx by lia. rewrite andb_comm. f_equal; [f_equal; lia|].
      destruct (Z.ltb_spec (j - (n - k)) 64), (Z.ltb_spec (b * w + j + k - n) (b * w + 64)); lia. }
  intros m' U. rewrite swrap64_small by lia. apply wp_iadd; try assumption; [lia|].
  intros r Hr Har. apply HQ; [assumption|lia|exact U].
Qed.

Lemma one_word_iff : forall w first last, 0 < w -> valid_it w first -> valid_it w last ->
  addr w first < addr w last -> ip first + (addr w last - addr w first) <= w ->
  one_word first last = true.
Proof.
  intros w first last Hw Hf Hl Hlt Hn. unfold one_word. apply Z.eqb_eq.
  unfold addr, valid_it in *. destruct (Z.eqb_spec (ip last) 0) as [E|E]; cbn [b2z]; nia.
Qed.

Lemma rotate_cut_ok : forall p w m first n_first last,
  valid_w w -> wf_mem w m -> good_range w m first last -> valid_it w n_first ->
  addr w first < addr w n_first <= addr w last ->
  let n := addr w last - addr w first in
  let k := addr w n_first - addr w first in
  n < 64 -> ip first < 64 -> 64 < ip first + n <= w ->
  exists r m', rotate p w first n_first last m = Ok (r, m') /\ valid_it w r /\
    addr w r = addr w first + (addr w last - addr w n_first) /\
    updated w m m' (addr w first) (addr w last)
      (fun i => let j := if i + k <? addr w last then i + k else i + k - n in
         bit w m j && (j <? ib first * w + 64)).
Proof.
  intros p w m first n_first last Hw Hwf (Hf & Hl & Hd & Hm) Hnf Hlt n k N64 P64 H64.
  pose proof (valid_pos w Hw) as Hwp.
  apply (wp_exists _ (rotate p w first n_first last) m (fun r m' => valid_it w r /\
    addr w r = addr w first + (addr w last - addr w n_first) /\
    updated w m m' (addr w first) (addr w last)
      (fun i => let j := if i + k <? addr w last then i + k else i + k - n in
         bit w m j && (j <? ib first * w + 64)))).
  unfold max_bits in Hd. unfold rotate.
  apply wp_bind, wp_assert_viable; try assumption; [lia|].
  apply wp_bind, wp_assert_viable; try assumption; [lia|].
  apply wp_bind, wp_assert_viable; try assumption.
  rewrite (ieq_addr w) by (assumption || lia).
  destruct (Z.eqb_spec (addr w first) (addr w n_first)) as [C1|C1]; [lia|].
  rewrite (one_word_iff w) by (assumption || unfold n in *; lia).
  apply wp_rotate_cut; try assumption; try (unfold n, k in *; lia).
  { apply one_word_iff with w; try assumption; unfold n in *; lia. }
  { replace (addr w first + (addr w last - addr w first)) with (addr w last) by lia. exact Hm. }
  replace (addr w first + (addr w last - addr w first)) with (addr w last) by lia.
  intros r m' V R U. split; [exact V|]. split; [lia|]. exact U.
Qed.

(** A range of 64 bits or more, or one that starts in the upper half. *)
Lemma rotate_wide_undefined : forall p w m first n_first last,
  p = Strict17 \/ p = Strict20 ->
  valid_w w -> valid_it w first -> valid_it w n_first -> valid_it w last ->
  addr w first < addr w n_first <= addr w last ->
  let n := addr w last - addr w first in
  n < w -> ip first + n <= w -> 64 <= n \/ 64 <= ip first ->
  rotate p w first n_first last m = UB OverShift.
Proof.
  intros p w m first n_first last Hp Hw Hf Hnf Hl Hlt n Hn Hone H64.
  pose proof (valid_pos w Hw) as Hwp.
  unfold rotate.
  assert (Hn' : addr w last - addr w first < w) by exact Hn.
  rewrite (assert_viable_eq w first n_first) by (assumption || lia).
  rewrite (assert_viable_eq w n_first last) by (assumption || lia).
  rewrite (assert_viable_eq w first last) by (assumption || lia).
  unfold bind, lift at 1 2 3.
  rewrite (ieq_addr w) by (assumption || lia).
  destruct (Z.eqb_spec (addr w first) (addr w n_first)) as [C1|C1]; [lia|].
  rewrite (one_word_iff w) by (assumption || unfold n in *; lia).
  unfold rotate_one_word.
  assert (El : (if ip last =? 0 then w else ip last) = ip first + n).
  { assert (O : one_word first last = true) by (apply one_word_iff with w; assumption || lia).
    unfold one_word in O. apply Z.eqb_eq in O. unfold n, addr in *.
    destruct (Z.eqb_spec (ip last) 0) as [E|E]; cbn [b2z] in O; nia. }
  destruct ((ip first =? 0) && (ip last =? 0)) eqn:E.
  { exfalso. assert (E1 : ip first = 0) by lia. assert (E2 : ip last =? 0 = true) by lia.
    rewrite E2 in El. lia. }
  rewrite El. rewrite (usub_small (ip first + n) (ip first)) by (unfold valid_it in *; lia).
  replace (ip first + n - ip first) with n by lia.
  destruct (Z.lt_ge_cases n 64) as [D64|D64].
  2: { unfold bind at 1. unfold lift at 1. unfold cshl. change (prom 64) with 64.
       destruct (Z.ltb_spec n 64); [lia|]. rewrite andb_false_r.
       destruct Hp as [-> | ->]; reflexivity. }
  unfold bind at 1. unfold lift at 1. rewrite (cshl_one p 64) by (unfold valid_w, n in *; lia).
  unfold bind at 1. unfold lift at 1. unfold cshl. change (prom 64) with 64.
  destruct (Z.ltb_spec (ip first) 64); [lia|]. rewrite andb_false_r.
  destruct Hp as [-> | ->]; reflexivity.
Qed.

(** All ranges decided. *)
Lemma rotate_wide_exact : forall p w first n_first last,
  p = Strict17 \/ p = Strict20 \/ w <= 64 ->
  valid_w w -> valid_it w first -> valid_it w n_first -> valid_it w last ->
  addr w first < addr w n_first < addr w last ->
  addr w last - addr w first <= max_bits ->
  (quotients_fit 64 w (addr w n_first - addr w first) (addr w last - addr w n_first) = true /\
   mask_fits w (ip first) (addr w last - addr w first)
   <->
   forall m, wf_mem w m -> good_range w m first last ->
   exists r m', rotate p w first n_first last m = Ok (r, m') /\ valid_it w r /\
     addr w r = addr w first + (addr w last - addr w n_first) /\
     updated w m m' (addr w first) (addr w last)
       (fun i => let j := i + (addr w n_first - addr w first) in
          bit w m (if j <? addr w last then j else j - (addr w last - addr w first)))).
Proof.
  intros p w first n_first last Hp Hw Hf Hnf Hl Hlt Hmax.
  pose proof (valid_pos w Hw) as Hwp.
  split.
  { intros [Hq Hmf]. apply rotate_exact; try assumption. lia. }
  intros Hall.
  assert (Hmf : mask_fits w (ip first) (addr w last - addr w first)).
  2: { split; [|exact Hmf]. apply (proj2 (rotate_exact p w first n_first last Hw Hf Hnf Hl
         ltac:(lia) Hmax Hmf)). exact Hall. }
  unfold mask_fits.
  destruct (Z.le_gt_cases w 64) as [C1|C1]; [left; exact C1|right].
  destruct (Z.lt_ge_cases w (ip first + (addr w last - addr w first))) as [C2|C2]; [left; exact C2|right].
  destruct (Z.eq_dec (addr w last - addr w first) w) as [C3|C3]; [left; exact C3|right].
  assert (Hs : p = Strict17 \/ p = Strict20) by (destruct Hp as [H|[H|H]]; [tauto|tauto|lia]).
  assert (Hg : forall i, good_range w (one_bit w i) first last).
  { intros i. repeat (split; [assumption|]). split; [lia|]. apply one_bit_mapped. }
  assert (C4 : addr w last - addr w first < 64 /\ ip first < 64).
  { destruct (Z.lt_ge_cases (addr w last - addr w first) 64) as [D1|D1].
    - destruct (Z.lt_ge_cases (ip first) 64) as [D2|D2]; [auto|exfalso].
      destruct (Hall (one_bit w 0) (one_bit_wf w 0 ltac:(lia)) (Hg 0)) as (r & m' & E & _).
      rewrite rotate_wide_undefined in E; try assumption; try discriminate; unfold valid_it in *; lia.
    - exfalso. destruct (Hall (one_bit w 0) (one_bit_wf w 0 ltac:(lia)) (Hg 0)) as (r & m' & E & _).
      rewrite rotate_wide_undefined in E; try assumption; try discriminate; unfold valid_it in *; lia. }
  split; [lia|]. apply Z.nlt_ge. intros C5. set (L := addr w last - 1).
  destruct (Hall (one_bit w L) (one_bit_wf w L ltac:(lia)) (Hg L)) as (r & m' & E & _ & _ & _ & _ & U).
  destruct (rotate_cut_ok p w (one_bit w L) first n_first last Hw (one_bit_wf w L ltac:(lia)) (Hg L)
    Hnf ltac:(lia) ltac:(lia) ltac:(lia) ltac:(lia)) as (r2 & m2 & E2 & _ & _ & _ & _ & U2).
  rewrite E in E2. injection E2 as _ <-.
  specialize (U (L - (addr w n_first - addr w first))).
  specialize (U2 (L - (addr w n_first - addr w first))).
  rewrite U2 in U. cbv zeta in U. rewrite !inr_in in U by (unfold L; lia).
  replace (L - (addr w n_first - addr w first) + (addr w n_first - addr w first)) with L in U by lia.
  destruct (Z.ltb_spec L (addr w last)) as [_|X]; [|unfold L in X; lia].
  rewrite one_bit_bit, Z.eqb_refl in U by lia. cbn [andb] in U.
  apply Z.ltb_lt in U. unfold L, addr in *. lia.
Qed.

(** A call on a word of 128 bits that loses a bit. *)
Lemma rotate_wide_refuted : exists m first n_first last,
  wf_mem 128 m /\ good_range 128 m first last /\ valid_it 128 n_first /\
  addr 128 first < addr 128 n_first < addr 128 last /\
  exists r m' i, rotate Strict20 128 first n_first last m = Ok (r, m') /\
    addr 128 first <= i < addr 128 last /\
    bit 128 m' i <> bit 128 m (rotl_from (addr 128 first) (addr 128 last - addr 128 first)
                                 (addr 128 n_first - addr 128 first) i).
Proof.
  exists (mem_of [2 ^ 69]), (It 0 60), (It 0 62), (It 0 70).
  split; [demo|]. split; [demo|]. split; [demo|]. split; [demo|].
  destruct (rotate Strict20 128 (It 0 60) (It 0 62) (It 0 70) (mem_of [2 ^ 69])) as [[r m']| | | |] eqn:E;
    [|vm_compute in E; discriminate E..].
  exists r, m', 67. split; [reflexivity|]. split; [vm_compute; intuition congruence|].
  vm_compute in E. injection E as _ <-. vm_compute. discriminate.
Qed.

(** Two machines: one takes the count of a 64-bit shift modulo 64, the other shifts
    everything out. *)
Lemma rotate_machines_refuted : exists o o' m first n_first last,
  wf_mem 128 m /\ good_range 128 m first last /\ valid_it 128 n_first /\
  addr 128 first < addr 128 n_first < addr 128 last /\
  exists r m1 m2 a, rotate (Hw o) 128 first n_first last m = Ok (r, m1) /\
    rotate (Hw o') 128 first n_first last m = Ok (r, m2) /\ m1 a <> m2 a.
Proof.
  set (o := fun (left : bool) x c => if left then Z.shiftl x (c mod 64) else Z.shiftr x (c mod 64)).
  set (o' := fun (left : bool) (x c : Z) => 0).
  exists o, o', (mem_of [7]), (It 0 0), (It 0 1), (It 0 64).
  split; [demo|]. split; [demo|]. split; [demo|]. split; [demo|].
  destruct (rotate (Hw o) 128 (It 0 0) (It 0 1) (It 0 64) (mem_of [7])) as [[r m1]| | | |] eqn:E1;
    [|vm_compute in E1; discriminate E1..].
  destruct (rotate (Hw o') 128 (It 0 0) (It 0 1) (It 0 64) (mem_of [7])) as [[r2 m2]| | | |] eqn:E2;
    [|vm_compute in E2; discriminate E2..].
  exists r, m1, m2, 0. vm_compute in E1. vm_compute in E2. injection E1 as <- <-.
  injection E2 as <- <-. split; [reflexivity|]. split; [reflexivity|]. vm_compute. discriminate.
Qed.
