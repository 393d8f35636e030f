(** Proofs about the elements that shift_left and shift_right vacate. *)
From Coq Require Import ZArith Bool List Lia.
From Coq Require Import ZifyBool.
From Verif Require Import Base WordOps IterModel AlgModel ShiftModel HwyModel Spec SpecHwy
  ProofBase ProofIter ProofWord ProofShift ProofHwy.
Open Scope Z_scope.
Ltac Zify.zify_post_hook ::= idtac.

Lemma shift_left_state : forall p w m first last n,
  valid_w w -> wf_mem w m -> good_range w m first last ->
  0 < n < addr w last - addr w first ->
  ip first <> 0 \/ ip last <> 0 \/ ib last - ib first <> 1 \/
    full_blend_defined p w ->
  exists r m', shift_left p w first last n m = Ok (r, m') /\ valid_it w r /\
    addr w r = addr w last - n /\ shifted_left w m m' (addr w first) (addr w last) n.
Proof.
  intros p w m first last n Vw Hwf (Hf & Hl & Hd & Hm) Hn Hg. unfold max_bits in *.
  apply wp_exists. apply wp_shift_left; try assumption; try lia. auto.
Qed.

Lemma shift_left_hwy_state : forall p h w m first last n,
  valid_w w -> vector_fits h w -> wf_mem w m -> good_range w m first last ->
  0 < n < addr w last - addr w first ->
  ip first <> 0 \/ ip last <> 0 \/ ib last - ib first <> 1 \/
    full_blend_defined p w ->
  exists r m', shift_left_hwy p h w first last n m = Ok (r, m') /\ valid_it w r /\
    addr w r = addr w last - n /\ shifted_left w m m' (addr w first) (addr w last) n.
Proof.
  intros p h w m first last n Vw Hfit Hwf (Hf & Hl & Hd & Hm) Hn Hg. unfold max_bits in *.
  apply wp_exists. apply wp_shift_left_with; try assumption; try lia; [|auto].
  apply sl_words_ok; assumption.
Qed.

Lemma shift_right_state : forall p w m first last n,
  valid_w w -> wf_mem w m -> good_range w m first last ->
  0 < n < addr w last - addr w first ->
  ip first <> 0 \/ ip last <> 0 \/ ib last - ib first <> 1 \/
    full_blend_defined p w ->
  exists r m', shift_right p w first last n m = Ok (r, m') /\ valid_it w r /\
    addr w r = addr w first + n /\ shifted_right w m m' (addr w first) (addr w last) n.
Proof.
  intros p w m first last n Vw Hwf (Hf & Hl & Hd & Hm) Hn Hg. unfold max_bits in *.
  apply wp_exists. apply wp_shift_right; try assumption; try lia. auto.
Qed.

Lemma shift_right_hwy_state : forall o h w m first last n,
  valid_w w -> vector_fits h w -> wf_mem w m -> good_range w m first last ->
  0 < n < addr w last - addr w first ->
  exists r m', shift_right_hwy (Hw o) h w first last n m = Ok (r, m') /\ valid_it w r /\
    addr w r = addr w first + n /\ shifted_right w m m' (addr w first) (addr w last) n.
Proof.
  intros o h w m first last n Vw Hfit Hwf (Hf & Hl & Hd & Hm) Hn. unfold max_bits in *.
  apply wp_exists. apply wp_shift_right_with; try assumption; try lia; [| |auto].
  - apply sr_words_ok; try assumption. exact I.
  - do 3 right. exact I.
Qed.

Lemma shift_left_zero : forall p w m first last n,
  valid_w w -> wf_mem w m -> good_range w m first last ->
  0 < n < addr w last - addr w first ->
  ip first <> 0 \/ ip last <> 0 \/ ib last - ib first <> 1 \/
    full_blend_defined p w ->
  addr w first / w = (addr w last - 1) / w ->
  exists r m', shift_left p w first last n m = Ok (r, m') /\
    forall i, addr w last - n <= i < addr w last -> bit w m' i = false.
Proof.
  intros p w m first last n Vw Hwf Hr Hn Hg H1.
  destruct (shift_left_state p w m first last n Vw Hwf Hr Hn Hg)
    as (r & m' & E & _ & _ & g & U & _ & V).
  exists r, m'. split; [exact E|]. intros i Hi.
  rewrite (updated_in _ _ _ _ _ _ _ U), V by lia. rewrite H1, Z.eqb_refl. reflexivity.
Qed.

Lemma shift_left_kept : forall p w m first last n,
  valid_w w -> wf_mem w m -> good_range w m first last ->
  0 < n < addr w last - addr w first ->
  addr w first / w <> (addr w last - 1) / w ->
  exists r m', shift_left p w first last n m = Ok (r, m') /\
    forall i, addr w last - n <= i < addr w last -> bit w m' i = bit w m i.
Proof.
  intros p w m first last n Vw Hwf Hr Hn H1. pose proof (valid_pos w Vw).
  assert (Hg : ip first <> 0 \/ ip last <> 0 \/ ib last - ib first <> 1 \/
    full_blend_defined p w).
  { destruct Hr as (Hf & Hl & _). unfold addr, valid_it in *.
    destruct (Z.eq_dec (ip first) 0) as [A|A]; [|auto].
    destruct (Z.eq_dec (ip last) 0) as [B|B]; [|auto].
    destruct (Z.eq_dec (ib last - ib first) 1) as [C|C]; [|auto]. exfalso. apply H1.
    replace (ib last) with (ib first + 1) by lia.
    rewrite !(div_of w (ib first)) by lia. reflexivity. }
  destruct (shift_left_state p w m first last n Vw Hwf Hr Hn Hg)
    as (r & m' & E & _ & _ & g & U & _ & V).
  exists r, m'. split; [exact E|]. intros i Hi.
  rewrite (updated_in _ _ _ _ _ _ _ U), V by lia.
  destruct (Z.eqb_spec (addr w first / w) ((addr w last - 1) / w)); [contradiction|reflexivity].
Qed.

Lemma shift_right_zero : forall p w m first last n,
  valid_w w -> wf_mem w m -> good_range w m first last ->
  0 < n < addr w last - addr w first ->
  ip first <> 0 \/ ip last <> 0 \/ ib last - ib first <> 1 \/
    full_blend_defined p w ->
  addr w first / w = (addr w last - 1) / w ->
  exists r m', shift_right p w first last n m = Ok (r, m') /\
    forall i, addr w first <= i < addr w first + n -> bit w m' i = false.
Proof.
  intros p w m first last n Vw Hwf Hr Hn Hg H1.
  destruct (shift_right_state p w m first last n Vw Hwf Hr Hn Hg)
    as (r & m' & E & _ & _ & g & U & _ & V).
  exists r, m'. split; [exact E|]. intros i Hi.
  rewrite (updated_in _ _ _ _ _ _ _ U), V by lia. rewrite H1, Z.eqb_refl. reflexivity.
Qed.

Lemma shift_right_kept : forall p w m first last n,
  valid_w w -> wf_mem w m -> good_range w m first last ->
  0 < n < addr w last - addr w first ->
  addr w first / w <> (addr w last - 1) / w ->
  exists r m', shift_right p w first last n m = Ok (r, m') /\
    (n mod w <> 0 \/ addr w last / w * w <= addr w first + n ->
       forall i, addr w first <= i < addr w first + n -> bit w m' i = bit w m i) /\
    (n mod w = 0 -> addr w first + n < addr w last / w * w ->
       (forall i, addr w first <= i < addr w first + n - addr w first mod w ->
          bit w m' i = bit w m i) /\
       (forall i, addr w first + n - addr w first mod w <= i < addr w first + n ->
          bit w m' i = bit w m (i - n))).
Proof.
  intros p w m first last n Vw Hwf Hr Hn H1. pose proof (valid_pos w Vw).
  assert (Hg : ip first <> 0 \/ ip last <> 0 \/ ib last - ib first <> 1 \/
    full_blend_defined p w).
  { destruct Hr as (Hf & Hl & _). unfold addr, valid_it in *.
    destruct (Z.eq_dec (ip first) 0) as [A|A]; [|auto].
    destruct (Z.eq_dec (ip last) 0) as [B|B]; [|auto].
    destruct (Z.eq_dec (ib last - ib first) 1) as [C|C]; [|auto]. exfalso. apply H1.
    replace (ib last) with (ib first + 1) by lia.
    rewrite !(div_of w (ib first)) by lia. reflexivity. }
  destruct (shift_right_state p w m first last n Vw Hwf Hr Hn Hg)
    as (r & m' & E & _ & _ & g & U & _ & V).
  exists r, m'. split; [exact E|].
  pose proof (Z.mod_pos_bound (addr w first) w ltac:(lia)) as Hmod.
  assert (Hle : n mod w = 0 -> w <= n).
  { intros Hz. destruct (Z.le_gt_cases w n) as [C|C]; [exact C|].
    rewrite Z.mod_small in Hz by lia. lia. }
  assert (V' : forall i, addr w first <= i < addr w first + n -> bit w m' i =
    if (n mod w =? 0) && (addr w first + n <? addr w last / w * w) &&
       (addr w first + n - addr w first mod w <=? i)
    then bit w m (i - n) else bit w m i).
  { intros i Hi. rewrite (updated_in _ _ _ _ _ _ _ U), V by lia.
    destruct (Z.eqb_spec (addr w first / w) ((addr w last - 1) / w)); [contradiction|reflexivity]. }
  split.
  - intros Hc i Hi. rewrite V' by lia.
    destruct (Z.eqb_spec (n mod w) 0) as [C1|C1]; [|reflexivity].
    destruct (Z.ltb_spec (addr w first + n) (addr w last / w * w)) as [C2|C2]; [|reflexivity].
    destruct Hc; [contradiction|lia].
  - intros C1 C2. rewrite C1 in V'. specialize (Hle C1). split; intros i Hi; rewrite V' by lia.
    + destruct (Z.leb_spec (addr w first + n - addr w first mod w) i); [lia|].
      rewrite andb_false_r. reflexivity.
    + destruct (Z.leb_spec (addr w first + n - addr w first mod w) i); [|lia].
      destruct (Z.ltb_spec (addr w first + n) (addr w last / w * w)); [reflexivity|lia].
Qed.

Lemma shift_left_builds : forall o h w m first last n,
  valid_w w -> vector_fits h w -> wf_mem w m -> good_range w m first last ->
  0 < n < addr w last - addr w first ->
  exists r m1 m2, shift_left (Hw o) w first last n m = Ok (r, m1) /\
    shift_left_hwy (Hw o) h w first last n m = Ok (r, m2) /\
    forall i, bit w m1 i = bit w m2 i.
Proof.
  intros o h w m first last n Vw Hfit Hwf Hr Hn. pose proof (valid_pos w Vw) as Hwp.
  destruct (shift_left_state (Hw o) w m first last n Vw Hwf Hr Hn ltac:(do 3 right; exact I))
    as (r & m1 & E1 & V1 & A1 & g1 & U1 & M1 & K1).
  destruct (shift_left_hwy_state (Hw o) h w m first last n Vw Hfit Hwf Hr Hn
    ltac:(do 3 right; exact I)) as (r2 & m2 & E2 & V2 & A2 & g2 & U2 & M2 & K2).
  exists r, m1, m2. split; [exact E1|]. split.
  - rewrite E2. do 2 f_equal. apply (addr_inj w); try assumption; lia.
  - intros i. destruct U1 as (_ & _ & B1). destruct U2 as (_ & _ & B2). rewrite B1, B2.
    unfold inr. destruct (Z.leb_spec (addr w first) i); [|reflexivity].
    destruct (Z.ltb_spec i (addr w last)); [|reflexivity]. cbn [andb].
    destruct (Z.lt_ge_cases i (addr w last - n)); [rewrite M1, M2 by lia|rewrite K1, K2 by lia];
      reflexivity.
Qed.

Lemma shift_right_builds : forall o h w m first last n,
  valid_w w -> vector_fits h w -> wf_mem w m -> good_range w m first last ->
  0 < n < addr w last - addr w first ->
  exists r m1 m2, shift_right (Hw o) w first last n m = Ok (r, m1) /\
    shift_right_hwy (Hw o) h w first last n m = Ok (r, m2) /\
    forall i, bit w m1 i = bit w m2 i.
Proof.
  intros o h w m first last n Vw Hfit Hwf Hr Hn. pose proof (valid_pos w Vw) as Hwp.
  destruct (shift_right_state (Hw o) w m first last n Vw Hwf Hr Hn ltac:(do 3 right; exact I))
    as (r & m1 & E1 & V1 & A1 & g1 & U1 & M1 & K1).
  destruct (shift_right_hwy_state o h w m first last n Vw Hfit Hwf Hr Hn)
    as (r2 & m2 & E2 & V2 & A2 & g2 & U2 & M2 & K2).
  exists r, m1, m2. split; [exact E1|]. split.
  - rewrite E2. do 2 f_equal. apply (addr_inj w); try assumption; lia.
  - intros i. destruct U1 as (_ & _ & B1). destruct U2 as (_ & _ & B2). rewrite B1, B2.
    unfold inr. destruct (Z.leb_spec (addr w first) i); [|reflexivity].
    destruct (Z.ltb_spec i (addr w last)); [|reflexivity]. cbn [andb].
    destruct (Z.lt_ge_cases i (addr w first + n)); [rewrite K1, K2 by lia|rewrite M1, M2 by lia];
      reflexivity.
Qed.
