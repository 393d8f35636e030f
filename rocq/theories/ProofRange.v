(** From the weakest-precondition lemmas to the statements of the property
    theorems about ranges. *)
From Coq Require Import ZArith Bool List Lia.
From Coq Require Import ZifyBool.
From Verif Require Import Base WordOps IterModel PopcntModel AlgModel Spec Demo
  ProofBase ProofIter ProofWord ProofAlg1 ProofCnt ProofCopy ProofCopyBackward
  ProofAlg2 ProofPopcnt2 ProofPopcnt3 ProofNeon ProofCount.
Import ListNotations.
Open Scope Z_scope.
Ltac Zify.zify_post_hook ::= Z.div_mod_to_equations.

Lemma get_word_ok : forall p w m first len,
  valid_w w -> wf_mem w m -> valid_it w first -> 1 <= len <= w ->
  mapped w m (addr w first) (addr w first + len) ->
  exists v, get_word p w first len m = Ok (v, m) /\ 0 <= v < 2 ^ w /\
    forall k, 0 <= k < len -> Z.testbit v k = bit w m (addr w first + k).
Proof.
  intros p w m first len Hw Hwf Hf Hl Hm.
  destruct (wp_exists _ _ _ _ (wp_get_word p w first len m
    (fun v m' => m' = m /\ 0 <= v < 2 ^ w /\
       forall k, 0 <= k < len -> Z.testbit v k = bit w m (addr w first + k))
    Hw Hf Hwf Hl Hm ltac:(intros v Hv Hb; split; [reflexivity|]; split; assumption)))
    as (v & m' & E & -> & H1 & H2).
  eexists. split; [exact E|]. split; assumption.
Qed.

Lemma write_word_ok : forall p w m src dst len,
  valid_w w -> wf_mem w m -> valid_it w dst -> 1 <= len <= w ->
  0 <= src < 2 ^ w -> mapped w m (addr w dst) (addr w dst + len) ->
  exists m', write_word p w src dst len m = Ok (tt, m') /\
    updated w m m' (addr w dst) (addr w dst + len)
      (fun i => Z.testbit src (i - addr w dst)).
Proof.
  intros p w m src dst len Hw Hwf Hd Hl Hs Hm.
  destruct (wp_exists _ _ _ _ (wp_write_word p w src dst len m
    (fun u m' => updated w m m' (addr w dst) (addr w dst + len)
      (fun i => Z.testbit src (i - addr w dst))) Hw Hd Hwf Hl Hs Hm (fun m' H => H)))
    as ([] & m' & E & H).
  eexists. split; [exact E|exact H].
Qed.

Lemma fill_ok : forall p w m first last b,
  valid_w w -> wf_mem w m -> good_range w m first last ->
  exists m', fill p w first last b m = Ok (tt, m') /\
    updated w m m' (addr w first) (addr w last) (fun _ => b).
Proof.
  intros p w m first last b Hw Hwf (Hf & Hl & Hd & Hm).
  destruct (wp_exists _ _ _ _ (wp_fill p w first last b m
    (fun u m' => updated w m m' (addr w first) (addr w last) (fun _ => b))
    Hw Hf Hl Hwf Hd Hm (fun m' H => H))) as ([] & m' & E & H).
  eexists. split; [exact E|exact H].
Qed.

Lemma copy_ok : forall p w m first last d,
  valid_w w -> wf_mem w m -> good_range w m first last ->
  good_dest w m d (addr w last - addr w first) ->
  addr w d <= addr w first \/ addr w last <= addr w d ->
  exists d' m', copy p w first last d m = Ok (d', m') /\ valid_it w d' /\
    addr w d' = addr w d + (addr w last - addr w first) /\
    updated w m m' (addr w d) (addr w d + (addr w last - addr w first))
      (fun i => bit w m (addr w first + (i - addr w d))).
Proof.
  intros p w m first last d Hw Hwf (Hf & Hl & Hd & Hm) (Hv & Hmd) Ho.
  apply wp_exists. apply wp_copy; try assumption.
  intros d' m' H1 H2 H3. split; [assumption|]. split; [assumption|].
  eapply updated_ext; [exact H3|]. intros i Hi. cbv beta. f_equal. lia.
Qed.

Lemma copy_backward_ok : forall p w m first last d,
  valid_w w -> wf_mem w m -> good_range w m first last ->
  good_dest_end w m d (addr w last - addr w first) ->
  addr w last <= addr w d \/ addr w d <= addr w first ->
  ip first <> 0 \/ ip last <> ip d \/ ib last - ib first < 2 \/
    full_blend_defined p w ->
  exists d' m', copy_backward p w first last d m = Ok (d', m') /\
    valid_it w d' /\
    addr w d' = addr w d - (addr w last - addr w first) /\
    updated w m m' (addr w d - (addr w last - addr w first)) (addr w d)
      (fun i => bit w m (addr w last - (addr w d - i))).
Proof.
  intros p w m first last d Hw Hwf (Hf & Hl & Hd & Hm) (Hv & Hmd) Ho Hg.
  apply wp_exists. apply wp_copy_backward; try assumption.
  intros d' m' H1 H2 H3. split; [assumption|]. split; [assumption|].
  eapply updated_ext; [exact H3|]. intros i Hi. cbv beta. f_equal. lia.
Qed.

Lemma copy_backward_hw : forall o w m first last d,
  valid_w w -> wf_mem w m -> good_range w m first last ->
  good_dest_end w m d (addr w last - addr w first) ->
  addr w last <= addr w d \/ addr w d <= addr w first ->
  exists d' m', copy_backward (Hw o) w first last d m = Ok (d', m') /\
    valid_it w d' /\
    addr w d' = addr w d - (addr w last - addr w first) /\
    updated w m m' (addr w d - (addr w last - addr w first)) (addr w d)
      (fun i => bit w m (addr w last - (addr w d - i))).
Proof.
  intros. apply copy_backward_ok; try assumption. do 3 right. exact I.
Qed.

Lemma equal_ok : forall p w m first last d,
  valid_w w -> wf_mem w m -> good_range w m first last ->
  good_dest w m d (addr w last - addr w first) ->
  exists r, equal p w first last d m = Ok (r, m) /\
    (r = true <->
     forall k, 0 <= k < addr w last - addr w first ->
       bit w m (addr w first + k) = bit w m (addr w d + k)).
Proof.
  intros p w m first last d Hw Hwf (Hf & Hl & Hd & Hm) (Hv & Hmd).
  destruct (wp_exists _ _ _ _ (wp_equal p w first last d m
    (fun r m' => m' = m /\
       decides r (same_bits w m (addr w first) (addr w d) (addr w last - addr w first)))
    Hw Hf Hl Hv Hwf Hd Hm Hmd ltac:(intros r Hr; split; [reflexivity|assumption])))
    as (r & m' & E & -> & H).
  exists r. split; [exact E|exact H].
Qed.

Lemma find_ok : forall p w m first last b,
  valid_w w -> wf_mem w m -> good_range w m first last ->
  (ip first <> 0 -> m (ib first) <> None) ->
  exists r, find p w first last b m = Ok (r, m) /\ valid_it w r /\
    addr w first <= addr w r <= addr w last /\
    (forall i, addr w first <= i < addr w r -> bit w m i <> b) /\
    (addr w r < addr w last -> bit w m (addr w r) = b).
Proof.
  intros p w m first last b Hw Hwf (Hf & Hl & Hd & Hm) Hne.
  destruct (wp_exists _ _ _ _ (wp_find p w first last b m
    (fun r m' => m' = m /\ valid_it w r /\
       first_pos w m (addr w first) (addr w last) b (addr w r))
    Hw Hf Hl Hwf Hd Hm Hne
    ltac:(intros r Hr1 Hr2; split; [reflexivity|split; assumption])))
    as (r & m' & E & -> & H1 & H2 & H3 & H4).
  exists r. split; [exact E|]. split; [assumption|]. split; [assumption|].
  split; [|assumption]. intros i Hi. rewrite H3 by assumption. destruct b; discriminate.
Qed.

Lemma count_gen : forall t p w m first last b,
  valid_w w -> wf_mem w m -> good_range w m first last ->
  (ib first <> ib last -> target_ok t w (mid_word first) (ib last - mid_word first)) ->
  (first = last -> m (ib first) <> None) ->
  count t p w first last b m =
  Ok (count_true (fun i => eqb (bit w m i) b) (addr w first)
        (Z.to_nat (addr w last - addr w first)), m).
Proof.
  intros t p w m first last b Hw Hwf (Hf & Hl & Hd & Hm) Ht Hne.
  pose proof (valid_pos w Hw).
  destruct (wp_exists _ _ _ _ (wp_count t p w first last b m
    (fun r m' => m' = m /\
       r = count_true (fun i => eqb (bit w m i) b) (addr w first)
        (Z.to_nat (addr w last - addr w first)))
    Hw Hf Hl Hwf Ht Hd Hm
    ltac:(intros Hz; apply Hne; apply (addr_inj w); try assumption; lia)
    ltac:(split; reflexivity))) as (r & m' & E & -> & ->).
  exact E.
Qed.

Lemma count_ok : forall t p w m first last b,
  valid_w w -> wf_mem w m -> good_range w m first last ->
  (exists c, t = X86 c) \/ t = Neon true \/ w = 64 ->
  (first = last -> m (ib first) <> None) ->
  count t p w first last b m =
  Ok (count_true (fun i => eqb (bit w m i) b) (addr w first)
        (Z.to_nat (addr w last - addr w first)), m).
Proof.
  intros t p w m first last b Hw Hwf Hr Ht Hne. apply count_gen; try assumption.
  intros _. destruct Ht as [[c ->]|[->|Ht]]; [exact I|exact I|]. subst w. apply target_ok_64.
Qed.

Lemma count_portable : forall t p w m first last b,
  let a := (if ip first =? 0 then ib first else ib first + 1) * (w / 8) in
  let size := ib last * (w / 8) - a in
  valid_w w -> wf_mem w m -> good_range w m first last ->
  size < 8 \/ (- a) mod 8 <= size mod 8 \/ (t = Neon false /\ size mod 64 < 8) ->
  (first = last -> m (ib first) <> None) ->
  count t p w first last b m =
  Ok (count_true (fun i => eqb (bit w m i) b) (addr w first)
        (Z.to_nat (addr w last - addr w first)), m).
Proof.
  intros t p w m first last b a size Hw Hwf Hr Hg Hne. apply count_gen; try assumption.
  intros Hneq.
  assert (Es : w / 8 * (ib last - mid_word first) = size).
  { unfold size, a, mid_word. lia. }
  assert (Ea : mid_word first * (w / 8) = a) by reflexivity.
  destruct t as [c|[|]|]; cbn [target_ok]; try exact I; rewrite Es, Ea.
  - destruct Hg as [Hg|[Hg|[_ Hg]]]; [|right; exact Hg|left; exact Hg].
    left. pose proof (Z.mod_le size 64).
    assert (0 <= size); [|lia].
    rewrite <- Es. pose proof (valid_pos w Hw).
    destruct Hr as (Hf & Hl & Hd & _). unfold addr, valid_it in *.
    assert (ib first <= ib last).
    { apply (base_le w); try assumption; unfold addr; lia. }
    apply Z.mul_nonneg_nonneg; [lia|]. unfold mid_word.
    destruct (Z.eqb_spec (ip first) 0); lia.
  - destruct Hg as [Hg|[Hg|[Hg _]]]; [left; exact Hg|right; exact Hg|discriminate Hg].
Qed.

Lemma count_portable_overread : forall t p w m first last b,
  let a := (if ip first =? 0 then ib first else ib first + 1) * (w / 8) in
  let size := ib last * (w / 8) - a in
  valid_w w -> wf_mem w m -> good_range w m first last ->
  (t = Generic /\ 8 <= size) \/ (t = Neon false /\ 8 <= size mod 64 /\ 0 <= size) ->
  size mod 8 < (- a) mod 8 -> m (ib last) = None ->
  count t p w first last b m = UB OutOfBounds.
Proof.
  intros t p w m first last b a size Hw Hwf (Hf & Hl & Hd & Hm) Ht Hg Hn.
  pose proof (valid_pos w Hw) as Hwp. pose proof (prom_ge w Hw) as Hpr.
  assert (E8 : w = 8 * (w / 8)) by (splitw; reflexivity).
  assert (Hc : 0 < w / 8) by (splitw; cbn; lia).
  assert (Hs : 8 <= size).
  { destruct Ht as [[_ Ht]|(_ & Ht & H0)]; [exact Ht|]. pose proof (Z.mod_le size 64). lia. }
  assert (Hmid : mid_word first * (w / 8) = a) by reflexivity.
  assert (Hlt : mid_word first < ib last).
  { clear Ht Hg. unfold size in Hs. rewrite <- Hmid in Hs. clearbody size. set (q := w / 8) in *.
    clearbody q. nia. }
  assert (Hge : ib first <= mid_word first).
  { unfold mid_word. destruct (ip first =? 0); lia. }
  unfold count. unfold bind at 1. unfold lift at 1.
  rewrite assert_viable_eq by (try assumption; unfold max_bits in *; lia).
  destruct (Z.eqb_spec (ib first) (ib last)); [lia|]. cbn [negb].
  assert (Hpre : wp (if negb (ip first =? 0)
      then let* x := load (ib first) in
           let! s := cshr p w x (ip first) in
           ret (popcnt_intrin w (wrap w s), ib first + 1)
      else ret (0, ib first)) m (fun q m1 => m1 = m /\ snd q = mid_word first)).
  { unfold mid_word. destruct (Z.eqb_spec (ip first) 0) as [E1|E1]; cbn [negb].
    - apply wp_ret. split; reflexivity.
    - unfold valid_it in *. apply wp_bind, (wp_load w); try assumption; try lia.
      { apply (mapped_word w m (addr w first) (addr w last)); try assumption; try lia;
          unfold addr; pose proof (mul_mono w (ib first + 1) (ib last)); lia. }
      intros x Hx Hbx. wpl. apply rwp_cshr; [lia|]. apply wp_ret. split; reflexivity. }
  apply wp_exists in Hpre. destruct Hpre as ([r it] & m1 & E & -> & Hit).
  cbn [snd] in Hit. subst it.
  unfold bind at 1. unfold bind at 1. rewrite E. unfold bind at 1.
  assert (Hbm : bmapped (byte_view w m) a size).
  { intros z Hz Hz2. unfold byte_view in Hz2.
    destruct (m (z / (w / 8))) eqn:Em; [discriminate|]. revert Em.
    assert (Hq : mid_word first <= z / (w / 8) < ib last).
    { clear Ht Hg. unfold size in Hz. rewrite <- Hmid in Hz. pose proof (word_of (w / 8) z Hc).
      clear - Hz Hc H. set (q := w / 8) in *. clearbody q. set (d := z / q) in *.
      clearbody d. nia. }
    assert (mid_word first = ib first /\ ip first = 0 \/ mid_word first = ib first + 1).
    { unfold mid_word. destruct (Z.eqb_spec (ip first) 0); auto. }
    clear - Hm Hq H Hw Hwp Hf Hl. generalize dependent (z / (w / 8)). intros q Hq.
    pose proof (mul_mono w (q + 1) (ib last)).
    pose proof (mul_mono w (mid_word first) q).
    apply (mapped_word w m (addr w first) (addr w last)); try assumption;
      unfold addr, valid_it in *; lia. }
  assert (Hbn : byte_view w m (a + size) = None).
  { unfold byte_view, size.
    replace (a + (ib last * (w / 8) - a)) with (ib last * (w / 8)) by lia.
    rewrite Z.div_mul by lia. rewrite Hn. reflexivity. }
  assert (Hb64 : 8 * size < 2 ^ 64).
  { unfold size. rewrite <- Hmid. unfold addr, valid_it, max_bits in *.
    clear - E8 Hd Hge Hc Hf Hl Hwp. set (q := w / 8) in *. clearbody q. nia. }
  assert (Hpop : popcnt_mem t w (mid_word first)
      (w / 8 * (ib last - mid_word first)) m = UB OutOfBounds).
  { unfold popcnt_mem. rewrite Hmid.
    replace (w / 8 * (ib last - mid_word first)) with size by (unfold size; lia).
    destruct Ht as [[-> Ht]|(-> & Ht & H0)]; cbn [popcnt].
    - rewrite popcnt_generic_oob; try assumption; try reflexivity. apply byte_view_wf.
    - rewrite popcnt_neon_oob; try assumption; try reflexivity. apply byte_view_wf. }
  rewrite Hpop. reflexivity.
Qed.

Lemma count_complement : forall t p w m first last c0 c1 m0 m1,
  valid_w w -> wf_mem w m -> good_range w m first last ->
  (exists c, t = X86 c) \/ t = Neon true \/ w = 64 ->
  (first = last -> m (ib first) <> None) ->
  count t p w first last true m = Ok (c1, m1) ->
  count t p w first last false m = Ok (c0, m0) ->
  c0 + c1 = addr w last - addr w first /\ 0 <= c0 /\ 0 <= c1.
Proof.
  intros t p w m first last c0 c1 m0 m1 Hw Hwf Hr Ht Hne H1 H0.
  rewrite count_ok in H1, H0 by assumption.
  injection H1 as <- <-. injection H0 as <- <-.
  destruct Hr as (Hf & Hl & Hd & Hm).
  set (n := Z.to_nat (addr w last - addr w first)).
  assert (Hn : Z.of_nat n = addr w last - addr w first) by lia.
  rewrite (count_true_ext (fun i => eqb (bit w m i) false)
            (fun i => negb (eqb (bit w m i) true)) n (addr w first) (addr w first)).
  - rewrite count_true_negb.
    pose proof (count_true_range (fun i => eqb (bit w m i) true) n (addr w first)). lia.
  - intros k Hk. destruct (bit w m (addr w first + k)); reflexivity.
Qed.

Lemma count_portable_refuted : exists p w m first last b,
  valid_w w /\ wf_mem w m /\ good_range w m first last /\ first <> last /\
  count Generic p w first last b m = UB OutOfBounds.
Proof.
  exists Strict17, 8, (mem_of [7; 1; 1; 1; 1; 1; 1; 1; 1; 1; 1; 1]), (It 1 0), (It 12 0), true.
  demo.
Qed.

Lemma count_empty_reads : forall t p w m it b,
  valid_w w -> valid_it w it -> m (ib it) = None ->
  count t p w it it b m = UB OutOfBounds.
Proof.
  intros t p w m it b Hw Hv Hn. unfold count, bind, lift.
  rewrite assert_viable_eq by (try assumption; lia).
  rewrite Z.eqb_refl. cbn [negb]. unfold load. rewrite Hn. reflexivity.
Qed.

Lemma count_empty_refuted : exists t p w m it b,
  valid_w w /\ wf_mem w m /\ good_range w m it it /\
  count t p w it it b m = UB OutOfBounds.
Proof.
  exists (X86 (Cpu true true true)), Strict17, 64, (mem_of []), (It 0 0), true. demo.
Qed.
