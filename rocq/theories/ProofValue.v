(** Proofs about bit_value. *)
From Coq Require Import ZArith Bool List Lia.
From Verif Require Import Base WordOps IterModel RefModel Spec SpecRef ValueModel SpecValue
  ProofBase ProofIter ProofReference ProofPointer ProofGeneric.
Import ListNotations.
Open Scope Z_scope.

Lemma word_odd : forall v, value_of_word v = Z.odd v.
Proof.
  intros v. unfold value_of_word. change 1 with (Z.ones 1). rewrite Z.land_ones by lia.
  change (2 ^ 1) with 2. rewrite Zmod_odd. destruct (Z.odd v); reflexivity.
Qed.

Lemma cmp_bool : forall c l r, value_cmp c l r = bool_cmp c l r.
Proof. intros [] [] []; reflexivity. Qed.

Section Program.
Variables (p : policy) (w : Z) (first : iter) (n : Z).
Hypothesis Vw : valid_w w.
Hypothesis Vf : valid_it w first.
Hypothesis Hn : 0 <= n <= max_bits.

(** The memory [m] holds the array [a], and everything else is as in [m0]. *)
Definition holds (m0 : mem) (a : Z -> bool) (m : mem) : Prop :=
  updated w m0 m (addr w first) (addr w first + n) (fun i => a (i - addr w first)).

Lemma holds_wf : forall m0 a m, holds m0 a m -> wf_mem w m.
Proof. intros m0 a m H. apply H. Qed.

Lemma holds_bit : forall m0 a m i, holds m0 a m -> 0 <= i < n -> bit w m (addr w first + i) = a i.
Proof.
  intros m0 a m i (_ & _ & H) Hi. rewrite H. unfold inr.
  rewrite (proj2 (Z.leb_le _ _)), (proj2 (Z.ltb_lt _ _)) by lia. cbn [andb]. f_equal. lia.
Qed.

Lemma holds_mapped : forall m0 a m i, mapped w m0 (addr w first) (addr w first + n) -> holds m0 a m ->
  0 <= i < n -> mapped w m (addr w first + i) (addr w first + i + 1).
Proof.
  intros m0 a m i Hm (_ & D & _) Hi j Hj E. apply (Hm j); [lia|]. apply D. exact E.
Qed.

Lemma holds_put : forall m0 a m m' i b, holds m0 a m -> 0 <= i < n ->
  updated w m m' (addr w first + i) (addr w first + i + 1) (fun _ => b) -> holds m0 (vput i b a) m'.
Proof.
  intros m0 a m m' i b (_ & D & H) Hi (W' & D' & H'). split; [assumption|]. split.
  - intros x. rewrite (D x). apply D'.
  - intros j. rewrite H', H. unfold inr, vput.
    destruct (Z.leb_spec (addr w first + i) j) as [C1|C1], (Z.ltb_spec j (addr w first + i + 1)) as [C2|C2];
      cbn [andb].
    2-4: destruct (Z.leb_spec (addr w first) j) as [C3|C3], (Z.ltb_spec j (addr w first + n)) as [C4|C4];
      cbn [andb]; try reflexivity; destruct (Z.eqb_spec (j - addr w first) i) as [C5|C5]; try reflexivity; lia.
    rewrite (proj2 (Z.leb_le _ _)), (proj2 (Z.ltb_lt _ _)) by lia. cbn [andb].
    destruct (Z.eqb_spec (j - addr w first) i) as [C5|C5]; [reflexivity|lia].
Qed.

(** One statement. *)
Lemma vexec_ok : forall m0 s e a m, mapped w m0 (addr w first) (addr w first + n) -> holds m0 a m ->
  bpre w n s ->
  exists m', vexec p w first s e m = Ok (fst (fst (bexec s e a)), snd (fst (bexec s e a)), m') /\
    holds m0 (snd (bexec s e a)) m'.
Proof.
  intros m0 s e a m Hm H P. unfold max_bits in Hn.
  assert (At : forall i, 0 <= i < n -> exists r, iindex p w first i = Ok r /\
    refers_to w r (addr w first + i) /\ mapped w m (addr w first + i) (addr w first + i + 1) /\
    bit w m (addr w first + i) = a i /\ ref_get r m = Ok (a i, m)).
  { intros i Hi. destruct (index_of w Vw p first i Vf ltac:(lia)) as (r & E & R).
    pose proof (holds_mapped _ _ _ i Hm H Hi) as Mp. pose proof (holds_bit _ _ _ i H Hi) as B.
    exists r. repeat (split; [assumption|]). rewrite <- B. apply ref_get_ok; try assumption.
    apply (holds_wf _ _ _ H). }
  pose proof (holds_wf _ _ _ H) as Wf.
  destruct s; cbn [bexec fst snd] in *; unfold vexec;
    try (exists m; split; [|assumption]).
  all: try reflexivity.
  - cbv [ret]. rewrite word_odd. reflexivity.
  - cbn [bpre] in P. destruct (val_all p w val n0 true true Vw P) as [E _]. cbv [bind lift rbind].
    rewrite E. reflexivity.
  - cbn [bpre] in P. destruct (At i P) as (r & E & R & Mp & B & G). cbv [bind lift rbind].
    rewrite E. unfold value_of_ref. rewrite G. reflexivity.
  - cbn [bpre] in P. destruct (At i P) as (r & E & R & Mp & B & G).
    destruct (ref_assign_ok p w m r _ r _ (e x) 0 0 Vw Wf R Mp R Mp) as [(m' & E' & U) _].
    { pose proof (valid_pos w Vw). lia. }
    exists m'. cbv [bind lift rbind]. rewrite E, E'. split; [reflexivity|]. eapply holds_put; eassumption.
  - destruct (e x), (e y); reflexivity.
  - destruct (e x), (e y); reflexivity.
  - destruct (e x), (e y); reflexivity.
  - cbn [bpre] in P. destruct (At i P) as (r & E & R & Mp & B & G).
    destruct (ref_compound_ok w m r _ (e x) Vw Wf R Mp) as [(m' & E' & U) _]. rewrite B in U.
    exists m'. cbv [bind lift rbind]. rewrite E, E'. split; [reflexivity|]. eapply holds_put; eassumption.
  - cbn [bpre] in P. destruct (At i P) as (r & E & R & Mp & B & G).
    destruct (ref_compound_ok w m r _ (e x) Vw Wf R Mp) as (_ & (m' & E' & U) & _). rewrite B in U.
    exists m'. cbv [bind lift rbind]. rewrite E, E'. split; [reflexivity|]. eapply holds_put; eassumption.
  - cbn [bpre] in P. destruct (At i P) as (r & E & R & Mp & B & G).
    destruct (ref_compound_ok w m r _ (e x) Vw Wf R Mp) as (_ & _ & (m' & E' & U)). rewrite B in U.
    exists m'. cbv [bind lift rbind]. rewrite E, E'. split; [reflexivity|]. eapply holds_put; eassumption.
  - destruct (e y); reflexivity.
  - destruct (e y), (e z); reflexivity.
  - destruct (e y), (e z); reflexivity.
  - destruct (e y), (e z); reflexivity.
  - cbn [bpre] in P. destruct (At i P) as (r & E & R & Mp & B & G).
    destruct (ref_swap_val_ok w m r _ (e x) Vw Wf R Mp) as (m' & E' & U). rewrite B in E'.
    exists m'. cbv [bind lift rbind]. rewrite E, E'. split; [reflexivity|]. eapply holds_put; eassumption.
  - cbv [ret]. rewrite cmp_bool. reflexivity.
  - cbn [bpre] in P. destruct (At i P) as (r & E & R & Mp & B & G). cbv [bind lift rbind].
    rewrite E. unfold value_of_ref. rewrite G, cmp_bool. reflexivity.
Qed.

Lemma vprun_ok : forall m0 c e a m, mapped w m0 (addr w first) (addr w first + n) -> holds m0 a m ->
  bpre_all w n c e a ->
  exists m', vprun p w first c e m = Ok (fst (fst (bprun c e a)), snd (fst (bprun c e a)), m') /\
    holds m0 (snd (bprun c e a)) m'.
Proof.
  intros m0 c. induction c as [|s next IH]; intros e a m Hm H P; cbn [vprun bprun bpre_all] in *.
  - exists m. split; [reflexivity|assumption].
  - destruct P as [P1 P2]. destruct (vexec_ok m0 s e a m Hm H P1) as (m1 & E1 & H1).
    destruct (bexec s e a) as [[o e'] a'] eqn:B. cbn [fst snd] in *.
    destruct (IH o e' a' m1 Hm H1 P2) as (m2 & E2 & H2).
    destruct (bprun (next o) e' a') as [[o2 e2] a2] eqn:B2. cbn [fst snd] in *.
    exists m2. split; [|assumption]. cbv [bind rbind]. rewrite E1. cbn [fst snd]. rewrite E2. reflexivity.
Qed.

End Program.

Lemma value_program : forall p w first n c e m, valid_w w -> valid_it w first -> 0 <= n <= max_bits ->
  wf_mem w m -> mapped w m (addr w first) (addr w first + n) ->
  bpre_all w n c e (fun i => bit w m (addr w first + i)) ->
  exists out e' a' m',
    bprun c e (fun i => bit w m (addr w first + i)) = (out, e', a') /\
    vprun p w first c e m = Ok (out, e', m') /\
    updated w m m' (addr w first) (addr w first + n) (fun i => a' (i - addr w first)).
Proof.
  intros p w first n c e m Vw Vf Hn Wf Hm P.
  assert (H0 : holds w first n m (fun i => bit w m (addr w first + i)) m).
  { split; [assumption|]. split; [intros x; reflexivity|]. intros i. unfold inr.
    destruct (_ && _); [f_equal; lia|reflexivity]. }
  destruct (vprun_ok p w first n Vw Vf Hn m c e _ m Hm H0 P) as (m' & E & H).
  destruct (bprun c e (fun i => bit w m (addr w first + i))) as [[o e'] a'] eqn:B. cbn [fst snd] in *.
  exists o, e', a', m'. auto.
Qed.

Lemma position_assert : forall p w first x val n e m, valid_w w -> w <= n ->
  vexec p w first (SWordPos x val n) e m = Assert.
Proof.
  intros p w first x val n e m _ Hn. cbn [vexec]. unfold val_of_word.
  destruct (Z.ltb_spec n w) as [C|C]; [lia|reflexivity].
Qed.
