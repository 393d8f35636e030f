(** std::shift_left and std::shift_right on bit iterators against the word-parallel
    shifts. *)
From Coq Require Import ZArith Bool List Lia ZifyBool.
From Verif Require Import Base WordOps IterModel RefModel AlgModel ShiftModel StdModel Spec SpecRef
  SpecStd ProofBase ProofIter ProofWord ProofAlg1 ProofRange ProofShift ProofReference ProofStd Demo.
Import ListNotations.
Open Scope Z_scope.
Ltac Zify.zify_post_hook ::= idtac.

Lemma wp_std_shift_left : forall p w fuel first last n m (Q : iter -> mem -> Prop),
  valid_w w -> wf_mem w m -> good_range w m first last ->
  0 < n < addr w last - addr w first -> addr w last - addr w first < Z.of_nat fuel ->
  (forall r m', valid_it w r -> addr w r = addr w last - n ->
     updated w m m' (addr w first) (addr w last - n) (fun i => bit w m (i + n)) -> Q r m') ->
  wp (std_shift_left p w fuel first last n) m Q.
Proof.
  intros p w fuel first last n m Q Vw Wf (Vf & Vl & Hd & M) Hn Hf HQ.
  pose proof (valid_pos w Vw) as Pw. unfold std_shift_left, max_bits in *.
  destruct (Z.eqb_spec n 0); [lia|].
  apply wp_bind, wp_lift. rewrite idiff_eq by (assumption || lia). apply rwp_ok.
  destruct (Z.leb_spec (addr w last - addr w first) n); [lia|].
  apply wp_bind, wp_lift, rwp_iadd; [assumption..|lia|]. intros mid Vm Am.
  apply (wp_std_copy p w Vw); try assumption; try lia.
  - intros i Hi. apply M. lia.
  - intros i Hi. apply M. lia.
  - intros d' m' Vd Ad U. apply HQ; [assumption|lia|].
    replace (addr w last - n) with (addr w first + (addr w last - addr w mid)) by lia.
    destruct U as (W' & D' & B'). split; [assumption|]. split; [assumption|].
    intros i. rewrite B'. destruct (inr _ _ _); [|reflexivity]. f_equal. lia.
Qed.

Lemma wp_std_shift_right : forall p w fuel first last n m (Q : iter -> mem -> Prop),
  valid_w w -> wf_mem w m -> good_range w m first last ->
  0 < n < addr w last - addr w first -> addr w last - addr w first < Z.of_nat fuel ->
  (forall r m', valid_it w r -> addr w r = addr w first + n ->
     updated w m m' (addr w first + n) (addr w last) (fun i => bit w m (i - n)) -> Q r m') ->
  wp (std_shift_right p w fuel first last n) m Q.
Proof.
  intros p w fuel first last n m Q Vw Wf (Vf & Vl & Hd & M) Hn Hf HQ.
  pose proof (valid_pos w Vw) as Pw. unfold std_shift_right, max_bits in *.
  destruct (Z.eqb_spec n 0); [lia|].
  apply wp_bind, wp_lift. rewrite idiff_eq by (assumption || lia). apply rwp_ok.
  destruct (Z.leb_spec (addr w last - addr w first) n); [lia|].
  apply wp_bind, wp_lift, rwp_isub; [assumption..|lia|]. intros mid Vm Am.
  apply (wp_std_copy_backward p w Vw); try assumption; try lia.
  - intros i Hi. apply M. lia.
  - intros i Hi. apply M. lia.
  - intros d' m' Vd Ad U. apply HQ; [assumption|lia|].
    replace (addr w first + n) with (addr w last - (addr w mid - addr w first)) by lia.
    destruct U as (W' & D' & B'). split; [assumption|]. split; [assumption|].
    intros i. rewrite B'. destruct (inr _ _ _); [|reflexivity]. f_equal. lia.
Qed.

Lemma same_dom_2 : forall m m1 m2, same_dom m m1 -> same_dom m m2 -> same_dom m1 m2.
Proof. intros m m1 m2 H1 H2 a. specialize (H1 a). specialize (H2 a). tauto. Qed.

Lemma std_shift_left_agree : forall p w m fuel first last n,
  valid_w w -> wf_mem w m -> good_range w m first last ->
  0 < n < addr w last - addr w first ->
  ip first <> 0 \/ ip last <> 0 \/ ib last - ib first <> 1 \/ full_blend_defined p w ->
  addr w last - addr w first < Z.of_nat fuel ->
  agree_but w (addr w last - n) (addr w last)
    (shift_left p w first last n) (std_shift_left p w fuel first last n) m.
Proof.
  intros p w m fuel first last n Vw Wf G Hn Hg Hf. pose proof (valid_pos w Vw) as Pw.
  destruct (shift_left_ok p w m first last n Vw Wf G Hn Hg)
    as (r1 & m1 & E1 & V1 & A1 & W1 & D1 & B1 & O1).
  destruct (wp_exists _ _ _ _ (wp_std_shift_left p w fuel first last n m
    (fun r m' => valid_it w r /\ addr w r = addr w last - n /\
      updated w m m' (addr w first) (addr w last - n) (fun i => bit w m (i + n)))
    Vw Wf G Hn Hf (fun d' m' H1 H2 H3 => conj H1 (conj H2 H3))))
    as (r2 & m2 & E2 & V2 & A2 & (W2 & D2 & B2)).
  assert (r1 = r2) by (apply (addr_inj w); [lia|assumption..|lia]). subst r2.
  exists r1, m1, m2. split; [exact E1|]. split; [exact E2|].
  split; [eapply same_dom_2; eassumption|]. intros i Hi. rewrite B2. unfold inr.
  bsplit; [apply B1; lia|apply O1; lia..].
Qed.

Lemma std_shift_right_agree : forall p w m fuel first last n,
  valid_w w -> wf_mem w m -> good_range w m first last ->
  0 < n < addr w last - addr w first ->
  ip first <> 0 \/ ip last <> 0 \/ ib last - ib first <> 1 \/ full_blend_defined p w ->
  addr w last - addr w first < Z.of_nat fuel ->
  agree_but w (addr w first) (addr w first + n)
    (shift_right p w first last n) (std_shift_right p w fuel first last n) m.
Proof.
  intros p w m fuel first last n Vw Wf G Hn Hg Hf. pose proof (valid_pos w Vw) as Pw.
  destruct (shift_right_ok p w m first last n Vw Wf G Hn Hg)
    as (r1 & m1 & E1 & V1 & A1 & W1 & D1 & B1 & O1).
  destruct (wp_exists _ _ _ _ (wp_std_shift_right p w fuel first last n m
    (fun r m' => valid_it w r /\ addr w r = addr w first + n /\
      updated w m m' (addr w first + n) (addr w last) (fun i => bit w m (i - n)))
    Vw Wf G Hn Hf (fun d' m' H1 H2 H3 => conj H1 (conj H2 H3))))
    as (r2 & m2 & E2 & V2 & A2 & (W2 & D2 & B2)).
  assert (r1 = r2) by (apply (addr_inj w); [lia|assumption..|lia]). subst r2.
  exists r1, m1, m2. split; [exact E1|]. split; [exact E2|].
  split; [eapply same_dom_2; eassumption|]. intros i Hi. rewrite B2. unfold inr.
  bsplit; [apply B1; lia|apply O1; lia..].
Qed.

(** No shift at all. *)
Lemma std_shift_left_none : forall p w m fuel first last n,
  valid_w w -> good_range w m first last ->
  n = 0 \/ addr w last - addr w first <= n -> 0 <= n ->
  agree (shift_left p w first last n) (std_shift_left p w fuel first last n) m.
Proof.
  intros p w m fuel first last n Vw G Hn H0.
  destruct (shift_left_none p w m first last n Vw G) as (S1 & S2).
  destruct G as (Vf & Vl & Hd & M). unfold max_bits in *.
  destruct (Z.eqb_spec n 0) as [E|E].
  - exists last, m, m. split; [apply S1; lia|]. split; [|reflexivity].
    unfold std_shift_left. destruct (Z.eqb_spec n 0); [reflexivity|lia].
  - exists first, m, m. split; [apply S2; lia|]. split; [|reflexivity].
    unfold std_shift_left. destruct (Z.eqb_spec n 0); [lia|].
    unfold bind, lift. rewrite idiff_eq by (assumption || lia).
    cbn. destruct (Z.leb_spec (addr w last - addr w first) n); [reflexivity|lia].
Qed.

Lemma std_shift_right_none : forall p w m fuel first last n,
  valid_w w -> good_range w m first last ->
  n = 0 \/ addr w last - addr w first <= n -> 0 <= n ->
  agree (shift_right p w first last n) (std_shift_right p w fuel first last n) m.
Proof.
  intros p w m fuel first last n Vw G Hn H0.
  destruct (shift_right_none p w m first last n Vw G) as (S1 & S2).
  destruct G as (Vf & Vl & Hd & M). unfold max_bits in *.
  destruct (Z.eqb_spec n 0) as [E|E].
  - exists first, m, m. split; [apply S1; lia|]. split; [|reflexivity].
    unfold std_shift_right. destruct (Z.eqb_spec n 0); [reflexivity|lia].
  - exists last, m, m. split; [apply S2; lia|]. split; [|reflexivity].
    unfold std_shift_right. destruct (Z.eqb_spec n 0); [lia|].
    unfold bind, lift. rewrite idiff_eq by (assumption || lia).
    cbn. destruct (Z.leb_spec (addr w last - addr w first) n); [reflexivity|lia].
Qed.

Lemma std_shift_refuted : exists p w m fuel first last n,
  valid_w w /\ wf_mem w m /\ good_range w m first last /\ 0 < n < addr w last - addr w first /\
  (exists r m', std_shift_left p w fuel first last n m = Ok (r, m')) /\
  (exists r m', std_shift_right p w fuel first last n m = Ok (r, m')) /\
  (exists u, shift_left p w first last n m = UB u) /\
  exists u, shift_right p w first last n m = UB u.
Proof.
  exists Strict17, 8, (mem_of [227; 90]), 20%nat, (It 0 0), (It 1 0), 3.
  repeat match goal with |- _ /\ _ => split end; try (demo; fail).
  - eexists _, _. vm_compute. reflexivity.
  - eexists _, _. vm_compute. reflexivity.
  - eexists. vm_compute. reflexivity.
  - eexists. vm_compute. reflexivity.
Qed.
