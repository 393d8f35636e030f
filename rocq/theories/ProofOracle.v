(** Outcomes do not depend on what an undefined shift produces, and which calls
    are defined. *)
From Coq Require Import ZArith Bool List Lia.
From Verif Require Import Base WordOps IterModel PopcntModel AlgModel TransformModel
  ShiftModel SwapModel ReverseModel RotateModel Spec SpecRotate ProofBase ProofIter ProofWord
  ProofAlg1 ProofShift ProofRange ProofTransform ProofSwap ProofReverse ProofRotate ProofRotateAll
  ProofUndefined ProofRefine Demo.
Import ListNotations.
Open Scope Z_scope.
Ltac Zify.zify_post_hook ::= idtac.

Lemma same_words : forall w m m1 m2, 0 < w -> wf_mem w m1 -> wf_mem w m2 ->
  same_dom m m1 -> same_dom m m2 -> (forall i, bit w m1 i = bit w m2 i) ->
  forall a, m1 a = m2 a.
Proof.
  intros w m m1 m2 Hw W1 W2 D1 D2 H a.
  destruct (m1 a) as [x|] eqn:E1; destruct (m2 a) as [y|] eqn:E2.
  - f_equal. pose proof (W1 _ _ E1) as Rx. pose proof (W2 _ _ E2) as Ry.
    apply Z.bits_inj'. intros k Hk. destruct (Z.ltb_spec k w) as [C|C].
    + specialize (H (a * w + k)). unfold bit in H.
      rewrite (Z.add_comm (a * w) k), Z.div_add, Z.mod_add in H by lia.
      rewrite Z.div_small, Z.mod_small in H by lia. cbn [Z.add] in H.
      rewrite E1, E2 in H. exact H.
    + rewrite (Z.bits_above_log2 x), (Z.bits_above_log2 y); try lia; try reflexivity.
      * destruct (Z.eq_dec y 0) as [->|]; [cbn; lia|]. apply Z.log2_lt_pow2; try lia.
        pose proof (Z.pow_le_mono_r 2 w k). lia.
      * destruct (Z.eq_dec x 0) as [->|]; [cbn; lia|]. apply Z.log2_lt_pow2; try lia.
        pose proof (Z.pow_le_mono_r 2 w k). lia.
  - apply D2 in E2. apply D1 in E2. congruence.
  - apply D1 in E1. apply D2 in E1. congruence.
  - reflexivity.
Qed.

Lemma bitblend_oracle : forall o o' w x y, valid_w w ->
  bitblend (Hw o) w x y 0 w = bitblend (Hw o') w x y 0 w.
Proof.
  intros o o' w x y Hw. unfold bitblend, cshl.
  rewrite Z.ltb_irrefl. cbn [b2z].
  destruct Hw as [->|[->|[->|[->| ->]]]]; cbn; rewrite ?Z.mul_0_r; reflexivity.
Qed.

Lemma bind_ext : forall A B (c : M A) (f g : A -> M B) m,
  (forall a m', c m = Ok (a, m') -> f a m' = g a m') -> bind c f m = bind c g m.
Proof.
  intros A B c f g m H. unfold bind. destruct (c m) as [[a m']| | | |]; try reflexivity.
  apply H. reflexivity.
Qed.

(** The one case of shift_left with an undefined shift, machine by machine. *)
Lemma shift_left_word_oracle : forall o o' w m first last n,
  valid_w w -> ip first = 0 -> ip last = 0 -> ib last - ib first = 1 -> 0 <= n ->
  shift_left (Hw o) w first last n m = shift_left (Hw o') w first last n m \/
  addr w last - addr w first <= n.
Proof.
  intros o o' w m first last n Hw F0 L0 E1 Hn.
  pose proof (valid_pos w Hw). pose proof (prom_ge w Hw).
  destruct (Z.leb_spec w n) as [C|C].
  { right. unfold addr. nia. }
  left. unfold shift_left.
  apply bind_ext; intros _ m1 _. apply bind_ext; intros d m2 _.
  apply bind_ext; intros mi m3 _.
  destruct (n <=? 0); [reflexivity|]. destruct (d <=? n); [reflexivity|].
  rewrite (one_word_full first last) by assumption.
  apply bind_ext; intros x m4 _. unfold end_pos. rewrite L0, F0. cbn [Z.eqb].
  rewrite Z.sub_0_r, Z.sub_diag. unfold cshr.
  replace ((0 <=? 0) && (0 <? prom w)) with true by (symmetry; apply andb_true_iff; lia).
  replace ((0 <=? n) && (n <? prom w)) with true by (symmetry; apply andb_true_iff; lia).
  unfold bind at 1 4, lift at 1 5. unfold bind at 1 3, lift at 1 4.
  rewrite (bitblend_oracle o o') by assumption. reflexivity.
Qed.

Lemma shift_right_word_oracle : forall o o' w m first last n,
  valid_w w -> ip first = 0 -> ip last = 0 -> ib last - ib first = 1 -> 0 <= n ->
  shift_right (Hw o) w first last n m = shift_right (Hw o') w first last n m \/
  addr w last - addr w first <= n.
Proof.
  intros o o' w m first last n Hw F0 L0 E1 Hn.
  pose proof (valid_pos w Hw). pose proof (prom_ge w Hw).
  destruct (Z.leb_spec w n) as [C|C].
  { right. unfold addr. nia. }
  left. unfold shift_right.
  apply bind_ext; intros d m2 _.
  apply bind_ext; intros mi m3 _.
  destruct (n <=? 0); [reflexivity|]. destruct (d <=? n); [reflexivity|].
  rewrite (one_word_full first last) by assumption.
  apply bind_ext; intros x m4 _. unfold end_pos. rewrite L0, F0. cbn [Z.eqb].
  rewrite Z.sub_0_r. unfold cshl.
  replace ((0 <=? 0) && (0 <? prom w)) with true by (symmetry; apply andb_true_iff; lia).
  replace ((0 <=? n) && (n <? prom w)) with true by (symmetry; apply andb_true_iff; lia).
  destruct (w <? 32);
    unfold bind at 1 4, lift at 1 5; unfold bind at 1 3, lift at 1 4;
    rewrite (bitblend_oracle o o') by assumption; reflexivity.
Qed.

(** The policies under which a blend of a whole word is undefined. *)
Lemma not_full_blend : forall p w, valid_w w ->
  (p = Strict17 \/ (p = Strict20 /\ 32 <= w)) -> ~ full_blend_defined p w.
Proof. intros p w _ [->|[-> H]]; cbn; lia. Qed.

Lemma full_blend_or : forall p w,
  ~ (p = Strict17 \/ (p = Strict20 /\ 32 <= w)) -> full_blend_defined p w.
Proof.
  intros p w H. destruct p as [| |o]; cbn; [exfalso; apply H; auto| |exact I].
  destruct (Z.ltb_spec w 32) as [C|C]; [exact C|]. exfalso. apply H. auto.
Qed.

Lemma shift_guard : forall p w (first last : iter),
  ~ (ip first = 0 /\ ip last = 0 /\ ib last - ib first = 1 /\
     (p = Strict17 \/ (p = Strict20 /\ 32 <= w))) ->
  ip first <> 0 \/ ip last <> 0 \/ ib last - ib first <> 1 \/ full_blend_defined p w.
Proof.
  intros p w first last H.
  destruct (Z.eq_dec (ip first) 0) as [E1|E1]; [|auto].
  destruct (Z.eq_dec (ip last) 0) as [E2|E2]; [|auto].
  destruct (Z.eq_dec (ib last - ib first) 1) as [E3|E3]; [|auto].
  right. right. right. apply full_blend_or. intros C. apply H. auto.
Qed.

Lemma shift_left_defined : forall p w m first last n,
  valid_w w -> wf_mem w m -> good_range w m first last ->
  0 < n < addr w last - addr w first ->
  let undef := ip first = 0 /\ ip last = 0 /\ ib last - ib first = 1 /\
    (p = Strict17 \/ (p = Strict20 /\ 32 <= w)) in
  (undef -> exists k, shift_left p w first last n m = UB k /\
     (k = OverShift \/ k = NegShift)) /\
  (~ undef -> exists r m', shift_left p w first last n m = Ok (r, m')).
Proof.
  intros p w m first last n Hw Hwf Hr Hn undef. split.
  - intros (F0 & L0 & E1 & Hp). apply shift_left_bad; try assumption.
    + unfold addr in Hn. nia.
    + apply not_full_blend; assumption.
  - intros Hu. destruct (shift_left_ok p w m first last n) as (r & m' & E & _); try assumption.
    + apply shift_guard, Hu.
    + exists r, m'. exact E.
Qed.

Lemma shift_right_defined : forall p w m first last n,
  valid_w w -> wf_mem w m -> good_range w m first last ->
  0 < n < addr w last - addr w first ->
  let undef := ip first = 0 /\ ip last = 0 /\ ib last - ib first = 1 /\
    (p = Strict17 \/ (p = Strict20 /\ 32 <= w)) in
  (undef -> exists k, shift_right p w first last n m = UB k /\
     (k = OverShift \/ k = NegShift)) /\
  (~ undef -> exists r m', shift_right p w first last n m = Ok (r, m')).
Proof.
  intros p w m first last n Hw Hwf Hr Hn undef. split.
  - intros (F0 & L0 & E1 & Hp). apply shift_right_bad; try assumption.
    + unfold addr in Hn. nia.
    + apply not_full_blend; assumption.
  - intros Hu. destruct (shift_right_ok p w m first last n) as (r & m' & E & _); try assumption.
    + apply shift_guard, Hu.
    + exists r, m'. exact E.
Qed.

Lemma reverse_defined : forall p w m first last,
  valid_w w -> wf_mem w m -> good_range w m first last ->
  addr w first < addr w last -> addr w last - addr w first + 2 * w <= max_bits ->
  let undef := ip first <> 0 /\ ip last = 0 /\ ib last - ib first = 1 /\
    (p = Strict17 \/ (p = Strict20 /\ 32 <= w)) in
  (undef -> exists k, reverse p w first last m = UB k /\
     (k = OverShift \/ k = NegShift)) /\
  (~ undef -> exists m', reverse p w first last m = Ok (tt, m')).
Proof.
  intros p w m first last Hw Hwf Hr Hlt Hmax undef. split.
  - intros (F0 & L0 & E1 & Hp). apply reverse_bad; try assumption.
    apply not_full_blend; assumption.
  - intros Hu. destruct (reverse_ok p w m first last) as (m' & E & _); try assumption.
    + lia.
    + destruct (Z.eq_dec (ip first) 0) as [E1|E1]; [auto|].
      destruct (Z.eq_dec (ip last) 0) as [E2|E2]; [|auto].
      destruct (Z.eq_dec (ib last - ib first) 1) as [E3|E3]; [|auto].
      right. right. right. apply full_blend_or. intros C. apply Hu. unfold undef. auto.
    + exists m'. exact E.
Qed.

Lemma copy_backward_defined : forall p w m first last d,
  valid_w w -> wf_mem w m -> good_range w m first last ->
  good_dest_end w m d (addr w last - addr w first) ->
  addr w last <= addr w d \/ addr w d <= addr w first ->
  let undef := ip first = 0 /\ ip last = ip d /\ 2 <= ib last - ib first /\
    (p = Strict17 \/ (p = Strict20 /\ 32 <= w)) in
  (undef -> exists k, copy_backward p w first last d m = UB k /\
     (k = OverShift \/ k = NegShift)) /\
  (~ undef -> exists r m', copy_backward p w first last d m = Ok (r, m')).
Proof.
  intros p w m first last d Hw Hwf Hr Hd Hov undef. split.
  - intros (F0 & L0 & E1 & Hp). apply copy_backward_bad; try assumption.
    apply not_full_blend; assumption.
  - intros Hu. destruct (copy_backward_ok p w m first last d) as (r & m' & E & _); try assumption.
    + destruct (Z.eq_dec (ip first) 0) as [E1|E1]; [|auto].
      destruct (Z.eq_dec (ip last) (ip d)) as [E2|E2]; [|auto].
      destruct (Z.ltb_spec (ib last - ib first) 2) as [E3|E3]; [auto|].
      right. right. right. apply full_blend_or. intros C. apply Hu. unfold undef. auto.
    + exists r, m'. exact E.
Qed.

Lemma undefined_shift_refuted :
  (exists w m first last n, valid_w w /\ wf_mem w m /\ good_range w m first last /\
     0 < n < addr w last - addr w first /\
     shift_left Strict20 w first last n m = UB OverShift) /\
  (exists w m first last n, valid_w w /\ wf_mem w m /\ good_range w m first last /\
     0 < n < addr w last - addr w first /\
     shift_right Strict17 w first last n m = UB NegShift) /\
  (exists w m first last, valid_w w /\ wf_mem w m /\ good_range w m first last /\
     addr w first < addr w last /\
     reverse Strict20 w first last m = UB OverShift) /\
  (exists w m first last d, valid_w w /\ wf_mem w m /\ good_range w m first last /\
     good_dest_end w m d (addr w last - addr w first) /\
     addr w last <= addr w d /\
     copy_backward Strict20 w first last d m = UB OverShift).
Proof.
  split; [|split; [|split]].
  - exists 32, (mem_of [4660]), (It 0 0), (It 1 0), 5. demo.
  - exists 8, (mem_of [77]), (It 0 0), (It 1 0), 3. demo.
  - exists 64, (mem_of [4660]), (It 0 3), (It 1 0). demo.
  - exists 32, (mem_of [1; 2; 3; 4]), (It 0 0), (It 2 0), (It 4 0). demo.
Qed.

(** Oracle independence. *)
Lemma shift_left_oracle : forall o o' w m first last n,
  valid_w w -> wf_mem w m -> good_range w m first last ->
  0 < n < addr w last - addr w first ->
  exists r m', shift_left (Hw o) w first last n m = Ok (r, m') /\
    shift_left (Hw o') w first last n m = Ok (r, m').
Proof.
  intros o o' w m first last n Vw Hwf Hr Hn.
  destruct (shift_left_hw o w m first last n) as (r & m' & E & _);
    [assumption..|].
  exists r, m'. split; [exact E|].
  destruct (shift_left_defined Strict17 w m first last n Vw Hwf Hr Hn) as [_ H2].
  destruct (Z.eq_dec (ip first) 0) as [E1|E1];
  [destruct (Z.eq_dec (ip last) 0) as [E2|E2];
   [destruct (Z.eq_dec (ib last - ib first) 1) as [E3|E3]|]|].
  1: { destruct (shift_left_word_oracle o o' w m first last n Vw E1 E2 E3 ltac:(lia))
         as [Ho|Ho]; [rewrite <- Ho; exact E|lia]. }
  all: destruct H2 as (r2 & m2 & H2); [intros (C1 & C2 & C3 & _); contradiction|].
  all: rewrite (le_shift_left Strict17 (Hw o) I _ _ _ _ _ _ H2) in E.
  all: injection E as <- <-; exact (le_shift_left Strict17 (Hw o') I _ _ _ _ _ _ H2).
Qed.

Lemma shift_right_oracle : forall o o' w m first last n,
  valid_w w -> wf_mem w m -> good_range w m first last ->
  0 < n < addr w last - addr w first ->
  exists r m', shift_right (Hw o) w first last n m = Ok (r, m') /\
    shift_right (Hw o') w first last n m = Ok (r, m').
Proof.
  intros o o' w m first last n Vw Hwf Hr Hn.
  destruct (shift_right_hw o w m first last n) as (r & m' & E & _);
    [assumption..|].
  exists r, m'. split; [exact E|].
  destruct (shift_right_defined Strict17 w m first last n Vw Hwf Hr Hn) as [_ H2].
  destruct (Z.eq_dec (ip first) 0) as [E1|E1];
  [destruct (Z.eq_dec (ip last) 0) as [E2|E2];
   [destruct (Z.eq_dec (ib last - ib first) 1) as [E3|E3]|]|].
  1: { destruct (shift_right_word_oracle o o' w m first last n Vw E1 E2 E3 ltac:(lia))
         as [Ho|Ho]; [rewrite <- Ho; exact E|lia]. }
  all: destruct H2 as (r2 & m2 & H2); [intros (C1 & C2 & C3 & _); contradiction|].
  all: rewrite (le_shift_right Strict17 (Hw o) I _ _ _ _ _ _ H2) in E.
  all: injection E as <- <-; exact (le_shift_right Strict17 (Hw o') I _ _ _ _ _ _ H2).
Qed.

Lemma updated_same : forall w m m1 m2 lo hi f, 0 < w ->
  updated w m m1 lo hi f -> updated w m m2 lo hi f -> forall a, m1 a = m2 a.
Proof.
  intros w m m1 m2 lo hi f Hw (W1 & D1 & B1) (W2 & D2 & B2).
  apply (same_words w m); try assumption. intros i. rewrite B1, B2. reflexivity.
Qed.

Lemma reverse_oracle : forall o o' w m first last,
  valid_w w -> wf_mem w m -> good_range w m first last ->
  addr w first < addr w last -> addr w last - addr w first + 2 * w <= max_bits ->
  exists m1 m2, reverse (Hw o) w first last m = Ok (tt, m1) /\
    reverse (Hw o') w first last m = Ok (tt, m2) /\ forall a, m1 a = m2 a.
Proof.
  intros o o' w m first last Vw Hwf Hr Hlt Hmax.
  destruct (reverse_hw o w m first last) as (m1 & E1 & U1);
    [assumption..|lia|].
  destruct (reverse_hw o' w m first last) as (m2 & E2 & U2);
    [assumption..|lia|].
  exists m1, m2. split; [exact E1|]. split; [exact E2|].
  pose proof (valid_pos w Vw). exact (updated_same w m m1 m2 _ _ _ ltac:(lia) U1 U2).
Qed.

Lemma copy_backward_oracle : forall o o' w m first last d,
  valid_w w -> wf_mem w m -> good_range w m first last ->
  good_dest_end w m d (addr w last - addr w first) ->
  addr w last <= addr w d \/ addr w d <= addr w first ->
  exists r m1 m2, copy_backward (Hw o) w first last d m = Ok (r, m1) /\
    copy_backward (Hw o') w first last d m = Ok (r, m2) /\ forall a, m1 a = m2 a.
Proof.
  intros o o' w m first last d Vw Hwf Hr Hd Hov. pose proof (valid_pos w Vw).
  destruct (copy_backward_hw o w m first last d) as (r1 & m1 & E1 & V1 & A1 & U1);
    [assumption..|].
  destruct (copy_backward_hw o' w m first last d) as (r2 & m2 & E2 & V2 & A2 & U2);
    [assumption..|].
  assert (r2 = r1) as -> by (apply (addr_inj w); try assumption; lia).
  exists r1, m1, m2. split; [exact E1|]. split; [exact E2|].
  exact (updated_same w m m1 m2 _ _ _ ltac:(lia) U1 U2).
Qed.

Lemma others_defined : forall w m first last,
  valid_w w -> wf_mem w m -> good_range w m first last ->
  let len := addr w last - addr w first in
  (forall b, exists m', fill Strict17 w first last b m = Ok (tt, m')) /\
  (forall b, ip first = 0 \/ m (ib first) <> None ->
     exists r, find Strict17 w first last b m = Ok (r, m)) /\
  (forall c b, first <> last \/ m (ib first) <> None ->
     exists r, count (X86 c) Strict17 w first last b m = Ok (r, m)) /\
  (forall d, good_dest w m d len ->
     exists r, equal Strict17 w first last d m = Ok (r, m)) /\
  (forall d, good_dest w m d len ->
     addr w d <= addr w first \/ addr w last <= addr w d ->
     exists r m', copy Strict17 w first last d m = Ok (r, m')) /\
  (forall d, good_dest w m d len ->
     addr w d <= addr w first \/ addr w last <= addr w d ->
     exists r m', move Strict17 w first last d m = Ok (r, m')) /\
  (forall d, good_dest w m d len ->
     addr w first + len <= addr w d \/ addr w d + len <= addr w first ->
     exists r m', swap_ranges Strict17 w first last d m = Ok (r, m')) /\
  (forall mid, valid_it w mid -> addr w first <= addr w mid < addr w last ->
     mask_fits w (ip first) len ->
     exists r m', rotate Strict17 w first mid last m = Ok (r, m')).
Proof.
  intros w m first last Hw Hwf Hr len. unfold len.
  split; [|split; [|split; [|split; [|split; [|split; [|split]]]]]].
  - intros b. destruct (fill_ok Strict17 w m first last b Hw Hwf Hr) as (m' & E & _).
    exists m'. exact E.
  - intros b Hb. destruct (find_ok Strict17 w m first last b Hw Hwf Hr) as (r & E & _).
    + intros C. destruct Hb as [Hb|Hb]; [contradiction|exact Hb].
    + exists r. exact E.
  - intros c b Hb. eexists. apply count_ok; [assumption..|eauto|].
    intros C. destruct Hb as [Hb|Hb]; [contradiction|exact Hb].
  - intros d Hd. destruct (equal_ok Strict17 w m first last d Hw Hwf Hr Hd) as (r & E & _).
    exists r. exact E.
  - intros d Hd Ho. destruct (copy_ok Strict17 w m first last d Hw Hwf Hr Hd Ho)
      as (r & m' & E & _). exists r, m'. exact E.
  - intros d Hd Ho. destruct (copy_ok Strict17 w m first last d Hw Hwf Hr Hd Ho)
      as (r & m' & E & _). exists r, m'. exact E.
  - intros d Hd Ho. destruct (swap_ranges_ok Strict17 w m first last d Hw Hwf Hr Hd Ho)
      as (r & m' & E & _). exists r, m'. exact E.
  - intros mid Hv Hm Hmf. pose proof Hr as (Hf & Hl & Hd & _).
    destruct (rotate_permutes Strict17 w first mid last Hw Hf Hv Hl Hm (proj2 Hd) Hmf)
      as (s & _ & _ & Hrun).
    destruct (Hrun m Hwf Hr) as (r & m' & E & _). exists r, m'. exact E.
Qed.

Lemma transform_defined : forall w m first last d,
  valid_w w -> wf_mem w m -> good_range w m first last ->
  good_dest w m d (addr w last - addr w first) ->
  addr w d <= addr w first \/ addr w last <= addr w d ->
  (forall op f,
     (forall x, 0 <= x < 2 ^ w -> 0 <= op x < 2 ^ w) ->
     (forall x k, 0 <= x < 2 ^ w -> 0 <= k < w ->
        Z.testbit (op x) k = f (Z.testbit x k)) ->
     exists r m', transform1 Strict17 w op first last d m = Ok (r, m')) /\
  (forall op f first2,
     good_dest w m first2 (addr w last - addr w first) ->
     addr w d <= addr w first2 \/
       addr w first2 + (addr w last - addr w first) <= addr w d ->
     (forall x y, 0 <= x < 2 ^ w -> 0 <= y < 2 ^ w -> 0 <= op x y < 2 ^ w) ->
     (forall x y k, 0 <= x < 2 ^ w -> 0 <= y < 2 ^ w -> 0 <= k < w ->
        Z.testbit (op x y) k = f (Z.testbit x k) (Z.testbit y k)) ->
     exists r m', transform2 Strict17 w op first last first2 d m = Ok (r, m')).
Proof.
  intros w m first last d Hw Hwf Hr Hd Ho. split.
  - intros op f H1 H2.
    destruct (transform1_ok Strict17 w op f m first last d Hw Hwf Hr Hd Ho H1 H2)
      as (r & m' & E & _). exists r, m'. exact E.
  - intros op f first2 Hd2 Ho2 H1 H2.
    destruct (transform2_ok Strict17 w op f m first last first2 d Hw Hwf Hr Hd2 Hd Ho Ho2 H1 H2)
      as (r & m' & E & _). exists r, m'. exact E.
Qed.

Lemma language_rules : forall p w m,
  (forall i j b x, fill Strict17 w i j b m = Ok x -> fill p w i j b m = Ok x) /\
  (forall i j b x, find Strict17 w i j b m = Ok x -> find p w i j b m = Ok x) /\
  (forall t i j b x, count t Strict17 w i j b m = Ok x -> count t p w i j b m = Ok x) /\
  (forall i j d x, equal Strict17 w i j d m = Ok x -> equal p w i j d m = Ok x) /\
  (forall i j d x, copy Strict17 w i j d m = Ok x -> copy p w i j d m = Ok x) /\
  (forall i j d x, copy_backward Strict17 w i j d m = Ok x ->
     copy_backward p w i j d m = Ok x) /\
  (forall op i j d x, transform1 Strict17 w op i j d m = Ok x ->
     transform1 p w op i j d m = Ok x) /\
  (forall op i j k d x, transform2 Strict17 w op i j k d m = Ok x ->
     transform2 p w op i j k d m = Ok x) /\
  (forall i j n x, shift_left Strict17 w i j n m = Ok x ->
     shift_left p w i j n m = Ok x) /\
  (forall i j n x, shift_right Strict17 w i j n m = Ok x ->
     shift_right p w i j n m = Ok x) /\
  (forall i j k x, swap_ranges Strict17 w i j k m = Ok x ->
     swap_ranges p w i j k m = Ok x) /\
  (forall i j x, reverse Strict17 w i j m = Ok x -> reverse p w i j m = Ok x) /\
  (forall i j k x, rotate Strict17 w i j k m = Ok x -> rotate p w i j k m = Ok x).
Proof.
  intros p w m.
  repeat match goal with |- _ /\ _ => split end; intros until x; revert x.
  - intros x. exact (le_fill Strict17 p I w i j b m x).
  - intros x. exact (le_find Strict17 p I w i j b m x).
  - intros x. exact (le_count Strict17 p I t w i j b m x).
  - intros x. exact (le_equal Strict17 p I w i j d m x).
  - intros x. exact (le_copy Strict17 p I w i j d m x).
  - intros x. exact (le_copy_backward Strict17 p I w i j d m x).
  - intros x. exact (le_transform1 Strict17 p I w op i j d m x).
  - intros x. exact (le_transform2 Strict17 p I w op i j k d m x).
  - intros x. exact (le_shift_left Strict17 p I w i j n m x).
  - intros x. exact (le_shift_right Strict17 p I w i j n m x).
  - intros x. exact (le_swap_ranges Strict17 p I w i j k m x).
  - intros x. exact (le_reverse Strict17 p I w i j m x).
  - intros x. exact (le_rotate Strict17 p I w i j k m x).
Qed.
