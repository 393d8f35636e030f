(** Algorithms in sequence. *)
From Coq Require Import ZArith Bool List Lia Permutation.
From Verif Require Import Base WordOps IterModel PopcntModel AlgModel TransformModel
  ShiftModel SwapModel ReverseModel RotateModel Spec ProofBase ProofIter ProofWord
  ProofCnt ProofAlg1 ProofShift ProofRange ProofTransform ProofSwap ProofReverse
  SpecRotate ProofRotate ProofRotateAll.
Import ListNotations.
Open Scope Z_scope.
Ltac Zify.zify_post_hook ::= idtac.

Lemma good_range_dom : forall w m m' a b, same_dom m m' ->
  good_range w m a b -> good_range w m' a b.
Proof.
  intros w m m' a b D (G1 & G2 & G3 & G4). repeat (split; [assumption|]).
  eapply mapped_dom; eassumption.
Qed.

Lemma good_dest_dom : forall w m m' a l, same_dom m m' ->
  good_dest w m a l -> good_dest w m' a l.
Proof.
  intros w m m' a l D (G1 & G2). split; [assumption|]. eapply mapped_dom; eassumption.
Qed.

Lemma inr_true : forall lo hi i, lo <= i < hi -> inr lo hi i = true.
Proof. intros lo hi i H. unfold inr. apply andb_true_iff. lia. Qed.

Lemma inr_false : forall lo hi i, i < lo \/ hi <= i -> inr lo hi i = false.
Proof. intros lo hi i H. unfold inr. apply andb_false_iff. lia. Qed.

Lemma copy_equal : forall p w m first last d,
  valid_w w -> wf_mem w m -> good_range w m first last ->
  good_dest w m d (addr w last - addr w first) ->
  addr w d + (addr w last - addr w first) <= addr w first \/ addr w last <= addr w d ->
  exists r m', copy p w first last d m = Ok (r, m') /\
    equal p w first last d m' = Ok (true, m').
Proof.
  intros p w m first last d Hw Hwf Hr Hd Ho.
  assert (Hl : 0 <= addr w last - addr w first) by apply Hr.
  destruct (copy_ok p w m first last d) as (r & m' & E & _ & _ & W & D & B);
    [assumption..|lia|].
  exists r, m'. split; [exact E|].
  destruct (equal_ok p w m' first last d) as (b & E' & Hb);
    [assumption|assumption|eapply good_range_dom; eassumption
    |eapply good_dest_dom; eassumption|].
  rewrite E'. f_equal. f_equal. apply Hb. intros k Hk. rewrite !B.
  rewrite inr_false by lia. rewrite inr_true by lia. f_equal. lia.
Qed.

Lemma rotate_back : forall p w m first mid last,
  valid_w w -> wf_mem w m -> good_range w m first last -> valid_it w mid ->
  addr w first < addr w mid < addr w last ->
  quotients_fit 64 w (addr w mid - addr w first) (addr w last - addr w mid) = true ->
  quotients_fit 64 w (addr w last - addr w mid) (addr w mid - addr w first) = true ->
  mask_fits w (ip first) (addr w last - addr w first) ->
  exists r m' m'', rotate p w first mid last m = Ok (r, m') /\
    rotate p w first r last m' = Ok (mid, m'') /\
    forall i, bit w m'' i = bit w m i.
Proof.
  intros p w m first mid last Hw Hwf Hr Hv Hm Hq1 Hq2 Hmf.
  pose proof (valid_pos w Hw) as Hwp.
  destruct (rotate_fit_ok p w m first mid last Hw Hwf Hr Hv ltac:(lia) Hmf Hq1)
    as (r & m' & E & V & A & W & D & B).
  assert (Hq3 : quotients_fit 64 w (addr w r - addr w first) (addr w last - addr w r) = true).
  { replace (addr w r - addr w first) with (addr w last - addr w mid) by lia.
    replace (addr w last - addr w r) with (addr w mid - addr w first) by lia. exact Hq2. }
  destruct (rotate_fit_ok p w m' first r last Hw W
    ltac:(eapply good_range_dom; eassumption) V ltac:(lia) Hmf Hq3)
    as (r' & m'' & E' & V' & A' & W' & D' & B').
  exists r, m', m''. split; [exact E|].
  assert (r' = mid) as -> by (apply (addr_inj w); try assumption; lia).
  split; [exact E'|]. intros i. rewrite B'. unfold inr at 1.
  destruct (Z.leb_spec (addr w first) i) as [C1|C1]; cbn [andb].
  2: { rewrite B, inr_false by lia. reflexivity. }
  destruct (Z.ltb_spec i (addr w last)) as [C2|C2].
  2: { rewrite B, inr_false by lia. reflexivity. }
  cbv zeta. rewrite A. rewrite B. cbv zeta.
  match goal with |- context [if ?x <? addr w last then _ else _] =>
    destruct (Z.ltb_spec x (addr w last)) as [C3|C3] end.
  - rewrite inr_true by lia.
    match goal with |- context [if ?x <? addr w last then _ else _] =>
      destruct (Z.ltb_spec x (addr w last)) as [C4|C4] end; [lia|]. f_equal. lia.
  - rewrite inr_true by lia.
    match goal with |- context [if ?x <? addr w last then _ else _] =>
      destruct (Z.ltb_spec x (addr w last)) as [C4|C4] end; [|lia]. f_equal. lia.
Qed.

Lemma shift_back : forall o w m first last n,
  valid_w w -> wf_mem w m -> good_range w m first last ->
  0 < n < addr w last - addr w first ->
  exists r m' r' m'', shift_right (Hw o) w first last n m = Ok (r, m') /\
    shift_left (Hw o) w first last n m' = Ok (r', m'') /\
    forall i, i < addr w last - n \/ addr w last <= i -> bit w m'' i = bit w m i.
Proof.
  intros o w m first last n Vw Hwf Hr Hn.
  destruct (shift_right_hw o w m first last n) as (r & m' & E & V & A & W & D & B & B0);
    [assumption..|].
  destruct (shift_left_hw o w m' first last n) as (r' & m'' & E' & V' & A' & W' & D' & B' & B0');
    [assumption|assumption|eapply good_range_dom; eassumption|assumption|].
  exists r, m', r', m''. split; [exact E|]. split; [exact E'|].
  intros i Hi. destruct (Z.ltb_spec i (addr w first)) as [C|C].
  { rewrite B0', B0 by lia. reflexivity. }
  destruct Hi as [Hi|Hi].
  - rewrite B', B by lia. f_equal. lia.
  - rewrite B0', B0 by lia. reflexivity.
Qed.

(** Counting. *)
Lemma count_true_rev : forall f n lo,
  count_true (fun i => f (lo + Z.of_nat n - 1 - (i - lo))) lo n = count_true f lo n.
Proof.
  assert (H : forall n f a b, (forall k, 0 <= k < Z.of_nat n -> True) ->
    count_true (fun i => f (b + Z.of_nat n - 1 - (i - a))) a n = count_true f b n).
  { induction n as [|n IH]; intros f a b _; [reflexivity|].
    replace (S n) with (n + 1)%nat by lia. rewrite (count_true_app f n 1 b).
    rewrite Nat.add_comm. rewrite (count_true_app _ 1 n a).
    cbn [count_true Nat.add]. rewrite !Z.add_0_r.
    replace (b + Z.of_nat (S n) - 1 - (a - a)) with (b + Z.of_nat n) by lia.
    rewrite <- (IH f (a + 1) b) by auto. change (Z.of_nat 1) with 1.
    rewrite (count_true_ext (fun i => f (b + Z.of_nat (S n) - 1 - (i - a)))
      (fun i => f (b + Z.of_nat n - 1 - (i - (a + 1)))) n (a + 1) (a + 1)).
    - lia.
    - intros k Hk. f_equal. lia. }
  intros f n lo. apply H. auto.
Qed.

Lemma count_x86 : forall c p w m first last b,
  valid_w w -> wf_mem w m -> good_range w m first last -> addr w first < addr w last ->
  count (X86 c) p w first last b m =
  Ok (count_true (fun i => eqb (bit w m i) b) (addr w first)
        (Z.to_nat (addr w last - addr w first)), m).
Proof.
  intros. apply count_ok; try assumption; [eauto|]. intros ->. lia.
Qed.

Lemma reverse_count : forall o c w m first last b,
  valid_w w -> wf_mem w m -> good_range w m first last ->
  addr w first < addr w last -> addr w last - addr w first + 2 * w <= max_bits ->
  exists m' n, reverse (Hw o) w first last m = Ok (tt, m') /\
    count (X86 c) (Hw o) w first last b m = Ok (n, m) /\
    count (X86 c) (Hw o) w first last b m' = Ok (n, m').
Proof.
  intros o c w m first last b Vw Hwf Hr Hlt Hmax.
  destruct (reverse_hw o w m first last) as (m' & E & W & D & B); [assumption..|lia|].
  exists m', (count_true (fun i => eqb (bit w m i) b) (addr w first)
     (Z.to_nat (addr w last - addr w first))). split; [exact E|].
  split; [apply count_x86; assumption|].
  rewrite count_x86; [|assumption|assumption|eapply good_range_dom; eassumption|assumption].
  f_equal. f_equal. set (n := Z.to_nat (addr w last - addr w first)).
  assert (Hn : Z.of_nat n = addr w last - addr w first) by lia.
  rewrite <- (count_true_rev (fun i => eqb (bit w m i) b)).
  apply count_true_ext. intros k Hk. rewrite B, inr_true by lia. f_equal. f_equal. lia.
Qed.

Fixpoint from_on (lo : Z) (n : nat) : list Z :=
  match n with O => [] | S k => lo :: from_on (lo + 1) k end.

Lemma from_on_in : forall n lo i, In i (from_on lo n) <-> lo <= i < lo + Z.of_nat n.
Proof.
  induction n as [|n IH]; intros lo i; cbn [from_on In]; [lia|]. rewrite IH. lia.
Qed.

Lemma from_on_nodup : forall n lo, NoDup (from_on lo n).
Proof.
  induction n as [|n IH]; intros lo; cbn [from_on]; constructor; [|apply IH].
  rewrite from_on_in. lia.
Qed.

Lemma from_on_length : forall n lo, length (from_on lo n) = n.
Proof. induction n as [|n IH]; intros lo; cbn; [|rewrite IH]; reflexivity. Qed.

Lemma count_true_filter : forall f n lo,
  count_true f lo n = Z.of_nat (length (filter f (from_on lo n))).
Proof.
  intros f n. induction n as [|n IH]; intros lo; cbn [count_true from_on filter]; [reflexivity|].
  rewrite IH. destruct (f lo); cbn [length]; lia.
Qed.

Lemma filter_map_length : forall (f : Z -> bool) (s : Z -> Z) l,
  length (filter (fun i => f (s i)) l) = length (filter f (map s l)).
Proof.
  intros f s l. induction l as [|x l IH]; cbn [filter map]; [reflexivity|].
  destruct (f (s x)); cbn [length]; lia.
Qed.

Lemma filter_perm_length : forall (f : Z -> bool) l l', Permutation l l' ->
  length (filter f l) = length (filter f l').
Proof.
  intros f l l' P. induction P; cbn [filter]; try lia.
  - destruct (f x); cbn [length]; lia.
  - destruct (f x), (f y); cbn [length]; lia.
Qed.

Lemma nodup_map_inj : forall (s : Z -> Z) l, NoDup l ->
  (forall i j, In i l -> In j l -> s i = s j -> i = j) -> NoDup (map s l).
Proof.
  intros s l N. induction N as [|x l Hx N IH]; intros Hs; cbn [map]; constructor.
  - intros C. apply in_map_iff in C as (y & E & Hy). apply Hx.
    rewrite <- (Hs y x); [exact Hy|right; exact Hy|left; reflexivity|exact E].
  - apply IH. intros i j Hi Hj. apply Hs; right; assumption.
Qed.

(** Counting after a permutation of the places. *)
Lemma count_true_perm : forall f s lo n,
  (forall i, lo <= i < lo + Z.of_nat n -> lo <= s i < lo + Z.of_nat n) ->
  (forall i j, lo <= i < lo + Z.of_nat n -> lo <= j < lo + Z.of_nat n -> s i = s j -> i = j) ->
  count_true (fun i => f (s i)) lo n = count_true f lo n.
Proof.
  intros f s lo n H1 H2. rewrite !count_true_filter, filter_map_length. f_equal.
  apply filter_perm_length. apply NoDup_Permutation_bis.
  - apply nodup_map_inj; [apply from_on_nodup|].
    intros i j Hi Hj. apply H2; apply from_on_in; assumption.
  - rewrite map_length. lia.
  - intros y Hy. apply in_map_iff in Hy as (x & <- & Hx). apply from_on_in.
    apply H1, from_on_in, Hx.
Qed.

Lemma rotate_count : forall p c w m first mid last b,
  valid_w w -> wf_mem w m -> good_range w m first last -> valid_it w mid ->
  addr w first <= addr w mid < addr w last ->
  mask_fits w (ip first) (addr w last - addr w first) ->
  exists r m' n, rotate p w first mid last m = Ok (r, m') /\
    count (X86 c) p w first last b m = Ok (n, m) /\
    count (X86 c) p w first last b m' = Ok (n, m').
Proof.
  intros p c w m first mid last b Hw Hwf Hr Hv Hm Hmf.
  pose proof Hr as (Hf & Hl & Hd & _).
  destruct (rotate_permutes p w first mid last Hw Hf Hv Hl Hm ltac:(lia) Hmf) as (s & P1 & P2 & Hrun).
  destruct (Hrun m Hwf Hr) as (r & m' & E & V & A & W & D & B).
  exists r, m', (count_true (fun i => eqb (bit w m i) b) (addr w first)
     (Z.to_nat (addr w last - addr w first))). split; [exact E|].
  split; [apply count_x86; try assumption; lia|].
  rewrite count_x86; [|assumption|assumption|eapply good_range_dom; eassumption|lia].
  f_equal. f_equal. set (n := Z.to_nat (addr w last - addr w first)).
  assert (Hn : Z.of_nat n = addr w last - addr w first) by lia.
  rewrite <- (count_true_perm (fun i => eqb (bit w m i) b) s (addr w first) n).
  - apply count_true_ext. intros k Hk. rewrite B, inr_true by lia. reflexivity.
  - intros i Hi. specialize (P1 i). lia.
  - intros i j Hi Hj. apply P2; lia.
Qed.

Lemma swap_ranges_count : forall p c w m first1 last1 first2 last2 b,
  valid_w w -> wf_mem w m -> good_range w m first1 last1 -> good_range w m first2 last2 ->
  addr w first1 < addr w last1 ->
  addr w last2 - addr w first2 = addr w last1 - addr w first1 ->
  addr w last1 <= addr w first2 \/ addr w last2 <= addr w first1 ->
  exists r m' n1 n2, swap_ranges p w first1 last1 first2 m = Ok (r, m') /\
    count (X86 c) p w first1 last1 b m = Ok (n1, m) /\
    count (X86 c) p w first2 last2 b m = Ok (n2, m) /\
    count (X86 c) p w first1 last1 b m' = Ok (n2, m') /\
    count (X86 c) p w first2 last2 b m' = Ok (n1, m').
Proof.
  intros p c w m f1 l1 f2 l2 b Hw Hwf Hr1 Hr2 Hlt Hlen Ho.
  destruct (swap_ranges_ok p w m f1 l1 f2) as (r & m' & E & _ & _ & W & D & B);
    [assumption|assumption|assumption| |lia|].
  { destruct Hr2 as (G1 & G2 & G3 & G4). split; [assumption|].
    replace (addr w f2 + (addr w l1 - addr w f1)) with (addr w l2) by lia. exact G4. }
  exists r, m', (count_true (fun i => eqb (bit w m i) b) (addr w f1)
     (Z.to_nat (addr w l1 - addr w f1))), (count_true (fun i => eqb (bit w m i) b) (addr w f2)
     (Z.to_nat (addr w l2 - addr w f2))). split; [exact E|].
  split; [apply count_x86; try assumption; lia|].
  split; [apply count_x86; try assumption; lia|].
  split.
  - rewrite count_x86; [|assumption|assumption|eapply good_range_dom; eassumption|lia].
    f_equal. f_equal. rewrite Hlen. apply count_true_ext. intros k Hk. rewrite B.
    rewrite inr_true by lia. f_equal. f_equal. lia.
  - rewrite count_x86; [|assumption|assumption|eapply good_range_dom; eassumption|lia].
    f_equal. f_equal. rewrite Hlen. apply count_true_ext. intros k Hk. rewrite B.
    rewrite inr_false by lia. rewrite inr_true by lia. f_equal. f_equal. lia.
Qed.

Lemma count_true_pos : forall f n lo i, lo <= i < lo + Z.of_nat n -> f i = true ->
  0 < count_true f lo n.
Proof.
  intros f n. induction n as [|n IH]; intros lo i Hi Hf; [lia|].
  cbn [count_true]. pose proof (count_true_range f n (lo + 1)).
  destruct (Z.eq_dec i lo) as [->|]; [rewrite Hf; lia|].
  specialize (IH (lo + 1) i ltac:(lia) Hf). destruct (f lo); lia.
Qed.

Lemma find_count : forall p c w m first last b,
  valid_w w -> wf_mem w m -> good_range w m first last -> addr w first < addr w last ->
  exists r n, find p w first last b m = Ok (r, m) /\
    count (X86 c) p w first last b m = Ok (n, m) /\ (r = last <-> n = 0).
Proof.
  intros p c w m first last b Hw Hwf Hr Hlt. pose proof (valid_pos w Hw) as Hwp.
  destruct (find_ok p w m first last b) as (r & E & V & A & B & B'); [assumption..| |].
  { intros _. destruct Hr as (G1 & _ & _ & G4).
    apply (mapped_word w m (addr w first) (addr w last)); try assumption;
      unfold addr, valid_it in *; lia. }
  exists r, (count_true (fun i => eqb (bit w m i) b) (addr w first)
     (Z.to_nat (addr w last - addr w first))).
  split; [exact E|]. split; [apply count_x86; assumption|]. split.
  - intros ->. apply count_true_false. intros k Hk.
    apply eqb_false_iff. apply B. lia.
  - intros H0. apply (addr_inj w); try assumption; try lia; [apply Hr|].
    destruct (Z.ltb_spec (addr w r) (addr w last)) as [C|C]; [|lia].
    specialize (B' C).
    pose proof (count_true_pos (fun i => eqb (bit w m i) b)
      (Z.to_nat (addr w last - addr w first)) (addr w first) (addr w r) ltac:(lia)) as Hp.
    cbv beta in Hp. rewrite B' in Hp. rewrite eqb_reflx in Hp. specialize (Hp eq_refl). lia.
Qed.

Lemma fill_count_find : forall p c w m first last b,
  valid_w w -> wf_mem w m -> good_range w m first last -> addr w first < addr w last ->
  exists m', fill p w first last b m = Ok (tt, m') /\
    count (X86 c) p w first last b m' = Ok (addr w last - addr w first, m') /\
    count (X86 c) p w first last (negb b) m' = Ok (0, m') /\
    find p w first last (negb b) m' = Ok (last, m') /\
    find p w first last b m' = Ok (first, m').
Proof.
  intros p c w m first last b Hw Hwf Hr Hlt. pose proof (valid_pos w Hw) as Hwp.
  destruct (fill_ok p w m first last b) as (m' & E & W & D & B); [assumption..|].
  exists m'. split; [exact E|].
  assert (Hr' : good_range w m' first last) by (eapply good_range_dom; eassumption).
  assert (Hz : count (X86 c) p w first last (negb b) m' = Ok (0, m')).
  { rewrite count_x86 by assumption. f_equal. f_equal. apply count_true_false.
    intros k Hk. rewrite B, inr_true by lia. destruct b; reflexivity. }
  assert (Ho : count (X86 c) p w first last b m' = Ok (addr w last - addr w first, m')).
  { destruct (count_complement (X86 c) p w m' first last 
      (count_true (fun i => eqb (bit w m' i) false) (addr w first)
        (Z.to_nat (addr w last - addr w first)))
      (count_true (fun i => eqb (bit w m' i) true) (addr w first)
        (Z.to_nat (addr w last - addr w first))) m' m') as (H1 & H2 & H3);
      try assumption; try (apply count_x86; assumption); [eauto|intros ->; lia|].
    rewrite count_x86 in * by assumption. f_equal. f_equal. injection Hz as Hz.
    destruct b; cbn [negb] in Hz; lia. }
  split; [exact Ho|]. split; [exact Hz|].
  destruct (find_count p c w m' first last (negb b)) as (r & n & F & C & Q);
    [assumption..|].
  rewrite Hz in C. injection C as <-. destruct Q as [_ Q]. rewrite (Q eq_refl) in F.
  split; [exact F|].
  destruct (find_ok p w m' first last b) as (r' & F' & V & A & B1 & B2); [assumption..| |].
  { intros _. destruct Hr' as (G1 & _ & _ & G4).
    apply (mapped_word w m' (addr w first) (addr w last)); try assumption;
      unfold addr, valid_it in *; lia. }
  rewrite F'. f_equal. f_equal. apply (addr_inj w); try assumption; [lia|apply Hr|].
  destruct (Z.eq_dec (addr w r') (addr w first)) as [C|C]; [exact C|].
  exfalso. apply (B1 (addr w first)); [lia|]. rewrite B, inr_true by lia. reflexivity.
Qed.
