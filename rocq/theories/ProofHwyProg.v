(** Programs in the BITLIB_HWY build. *)
From Coq Require Import ZArith Bool List Lia.
From Coq Require Import ZifyBool.
From Verif Require Import Base WordOps IterModel RefModel PopcntModel AlgModel TransformModel
  ShiftModel SwapModel ReverseModel RotateModel HwyModel HwyAlgModel GenericModel ProgModel
  HwyProgModel Spec SpecRef SpecHwy SpecStd SpecVec SpecGeneric SpecProg
  ProofBase ProofIter ProofWord ProofRange ProofShift ProofHwy ProofVacated ProofOracle
  ProofThread ProofSteps ProofVec ProofVec2 ProofGeneric ProofProg ProofHwyAlg ProofHwyVec.
Import ListNotations.
Open Scope Z_scope.
Ltac Zify.zify_post_hook ::= idtac.

Lemma find_hwy_same : forall p h w m first last b,
  valid_w w -> vector_fits h w -> wf_mem w m -> good_range w m first last ->
  (ip first <> 0 -> m (ib first) <> None) ->
  agree (find_hwy p h w first last b) (find p w first last b) m.
Proof.
  intros p h w m first last b Vw Hfit Wf G Hn. pose proof (valid_pos w Vw) as Pw.
  destruct (find_hwy_ok p h w m first last b Vw Hfit Wf G Hn) as (r & E & V & A & F1 & F2).
  destruct (find_ok p w m first last b Vw Wf G Hn) as (r' & E' & V' & A' & F1' & F2').
  assert (r = r') as <-.
  { apply (addr_inj w); try assumption; [lia|].
    destruct (Z.lt_trichotomy (addr w r) (addr w r')) as [C|[C|C]]; [|exact C|].
    - exfalso. apply (F1' (addr w r)); [lia|]. apply F2. lia.
    - exfalso. apply (F1 (addr w r')); [lia|]. apply F2'. lia. }
  exists r, m, m. auto.
Qed.

Lemma agree_bind : forall A B (c1 c2 : M A) (k1 k2 : A -> M B) m, agree c1 c2 m ->
  (forall a m1 m2, c1 m = Ok (a, m1) -> c2 m = Ok (a, m2) -> (forall x, m1 x = m2 x) ->
     exists b m1' m2', k1 a m1 = Ok (b, m1') /\ k2 a m2 = Ok (b, m2') /\ forall x, m1' x = m2' x) ->
  agree (let* a := c1 in k1 a) (let* a := c2 in k2 a) m.
Proof.
  intros A B c1 c2 k1 k2 m (a & m1 & m2 & E1 & E2 & H) K.
  destruct (K a m1 m2 E1 E2 H) as (b & m1' & m2' & F1 & F2 & F).
  exists b, m1', m2'. unfold bind. rewrite E1, E2. auto.
Qed.

Lemma agree_ret : forall A B (c1 c2 : M A) (f : A -> B) m, agree c1 c2 m ->
  agree (let* a := c1 in ret (f a)) (let* a := c2 in ret (f a)) m.
Proof.
  intros A B c1 c2 f m H. apply agree_bind; [exact H|]. intros a m1 m2 _ _ K.
  exists (f a), m1, m2. auto.
Qed.

(** fill in the two builds on memories with the same words. *)
Lemma fill_hwy_both : forall p h w m1 m2 first last b (A : Type) (x : A), valid_w w ->
  vector_fits h w -> wf_mem w m2 -> good_range w m2 first last -> (forall a, m1 a = m2 a) ->
  exists y n1 n2, (fill_hwy p h w first last b ;; ret x) m1 = Ok (y, n1) /\
    (fill p w first last b ;; ret x) m2 = Ok (y, n2) /\ forall a, n1 a = n2 a.
Proof.
  intros p h w m1 m2 first last b A x Vw Hfit Wf G H.
  assert (Wf1 : wf_mem w m1) by (intros a y E; rewrite H in E; apply (Wf a y E)).
  assert (G1 : good_range w m1 first last).
  { destruct G as (V1 & V2 & K & Mp). split; [exact V1|]. split; [exact V2|]. split; [exact K|].
    intros i Hi. rewrite H. apply Mp, Hi. }
  destruct (fill_hwy_ok p h w m1 first last b Vw Hfit Wf1 G1) as (n1 & E1 & U1).
  destruct (fill_ok p w m2 first last b Vw Wf G) as (n2 & E2 & U2).
  exists x, n1, n2. unfold bind. rewrite E1, E2. split; [reflexivity|]. split; [reflexivity|].
  apply (updated_same w m1 n1 n2 (addr w first) (addr w last) (fun _ => b)); [pose proof (valid_pos w Vw); lia|exact U1|].
  destruct U2 as (W2 & S2 & B2). split; [exact W2|]. split; [intros a; rewrite H; apply S2|].
  intros i. rewrite B2. unfold bit. rewrite H. reflexivity.
Qed.

Ltac opt1 :=
  match goal with
  | H : given ?x _ = Some _ |- _ =>
    let k := fresh "k" in let i := fresh "i" in let E := fresh "E" in
    destruct x as [[k i]|] eqn:E; [cbn [given fst snd] in H|discriminate H]
  | H : check ?b _ = Some _ |- _ =>
    let C := fresh "C" in destruct b eqn:C; [cbn [check] in H|discriminate H]
  | H : Some _ = Some _ |- _ => injection H as <- <- <-
  end.

Section Prog.
Variables (w : Z) (lo : nat -> Z) (t : target) (o : bool -> Z -> Z -> Z) (h : simd_unit).
Hypothesis Vw : valid_w w.
Hypothesis H64 : w <= 64.
Hypothesis Hfit : vector_fits h w.
Hypothesis Ht : (exists c, t = X86 c) \/ t = Neon true.

Lemma pstep_hwy_same : forall op e s m arr y s' arr', wf_mem w m -> laid_out w m lo arr ->
  (forall k, size arr k < 2 ^ 32) -> designates w lo arr e s ->
  spstep op s arr = Some (y, s', arr') ->
  pstep_hwy t (Hw o) h w op e m = pstep t (Hw o) w op e m \/
  agree (pstep_hwy t (Hw o) h w op e) (pstep t (Hw o) w op e) m.
Proof.
  intros op e s m arr y s' arr' W L Sm D H. pose proof (valid_pos w Vw) as Pw.
  assert (RG : forall x y k i k' j, sit s x = Some (k, i) -> sit s y = Some (k', j) ->
    Nat.eqb k k' && (i <=? j) && (0 <? size arr k) = true ->
    k' = k /\ i <= j /\ 0 < size arr k /\
    good_range w m (eit e x) (eit e y) /\ addr w (eit e x) = lo k + i /\
    addr w (eit e y) = lo k + j /\ 0 <= i /\ j <= size arr k).
  { intros x y0 k i k' j E1 E2 C. destruct (Nat.eqb_spec k k') as [<-|N]; [|discriminate C].
    cbn [andb] in C. split; [reflexivity|]. split; [lia|]. split; [lia|].
    apply (range_ok w lo e s m arr x y0 k i j L D E1 E2). lia. }
  destruct op; cbn [spstep] in H; cbv zeta in H; cbn [pstep_hwy pstep]; cbv zeta;
    match goal with
    | |- ?a = ?b \/ _ => first [constr_eq a b; left; exact eq_refl | right]
    end.
  - repeat opt1. destruct (RG _ _ _ _ _ _ E E0 C) as (-> & C1 & C2 & G & A1 & A2 & B1 & B2).
    apply agree_ret, fill_hwy_same; assumption.
  - repeat opt1. destruct (RG _ _ _ _ _ _ E E0 C) as (-> & C1 & C2 & G & A1 & A2 & B1 & B2).
    pose proof (Sm k) as Sk. pose proof G as (V1 & V2 & _).
    apply agree_ret, reverse_hwy_same; try assumption.
    { rewrite A1, A2. unfold max_bits. lia. }
    intros _. destruct (Z.eq_dec (ip (eit e x)) 0) as [Z0|Z0]; [left; exact Z0|right].
    apply (word_ok w lo Vw m arr k i (eit e x) L); assumption || lia.
  - repeat opt1. destruct (RG _ _ _ _ _ _ E E0 C) as (-> & C1 & C2 & G & A1 & A2 & B1 & B2).
    destruct (Nat.eqb_spec k1 k) as [->|N]; [|discriminate C0]. cbn [andb] in C0.
    pose proof (proj1 D _ _ _ E1) as (_ & Vn & An).
    apply agree_ret, rotate_hwy_same; try assumption; [rewrite A1, A2, An; lia|]. left. exact H64.
  - repeat opt1. destruct (RG _ _ _ _ _ _ E E0 C) as (-> & C1 & C2 & G & A1 & A2 & B1 & B2).
    pose proof G as (V1 & V2 & Hl & Gm).
    apply agree_ret, agree_bind.
    { apply shift_left_hwy_same; try assumption. intros _. right; right; exact I. }
    intros r' m1 m2 _ Es Q.
    destruct (any_shift_left w Vw t (Hw o) Ht I m _ _ n W G) as (r2 & m2' & Es' & Vr & Ar & W1 & S1 & F1 & F2).
    rewrite Es in Es'. injection Es' as <- <-.
    apply fill_hwy_both; try assumption.
    split; [exact Vr|]. split; [exact V2|]. split; [lia|].
    intros a Ha. apply (ProofProg.mapped_dom w m m2 _ _ S1 Gm). lia.
  - repeat opt1. destruct (RG _ _ _ _ _ _ E E0 C) as (-> & C1 & C2 & G & A1 & A2 & B1 & B2).
    pose proof G as (V1 & V2 & Hl & Gm).
    apply agree_ret, agree_bind.
    { apply shift_right_hwy_same; try assumption; [intros; exact I|]. intros _. right; right; exact I. }
    intros r' m1 m2 _ Es Q.
    destruct (any_shift_right w Vw t (Hw o) Ht I m _ _ n W G) as (r2 & m2' & Es' & Vr & Ar & W1 & S1 & F1 & F2).
    rewrite Es in Es'. injection Es' as <- <-.
    apply fill_hwy_both; try assumption.
    split; [exact V1|]. split; [exact Vr|]. split; [lia|].
    intros a Ha. apply (ProofProg.mapped_dom w m m2 _ _ S1 Gm). lia.
  - repeat opt1. destruct (RG _ _ _ _ _ _ E E0 C) as (-> & C1 & C2 & G & A1 & A2 & B1 & B2).
    pose proof G as (V1 & V2 & _).
    apply agree_ret, find_hwy_same; try assumption.
    intros N. apply (word_ok w lo Vw m arr k i (eit e x) L); assumption || lia.
Qed.

Lemma laid_ext : forall m m' arr, (forall a, m a = m' a) -> laid_out w m lo arr -> laid_out w m' lo arr.
Proof.
  intros m m' arr H (L1 & L2). split; [|exact L2]. intros k. destruct (L1 k) as (S & M & B).
  split; [exact S|]. split.
  - intros i Hi. rewrite <- H. apply M, Hi.
  - intros i Hi. rewrite <- B by exact Hi. unfold bit. rewrite H. reflexivity.
Qed.

Lemma follows_ext : forall m m1 m2 arr arr', (forall a, m1 a = m2 a) ->
  follows w lo m m2 arr arr' -> follows w lo m m1 arr arr'.
Proof.
  intros m m1 m2 arr arr' H (W & S & Z & L & O). split; [|split; [|split; [|split]]].
  - intros a x E. rewrite H in E. apply (W a x E).
  - intros a. rewrite H. apply S.
  - exact Z.
  - apply (laid_ext m2); [intros; symmetry; apply H|exact L].
  - intros a Ha. rewrite <- O by exact Ha. unfold bit. rewrite H. reflexivity.
Qed.

Lemma spstep_hwy_ok : forall op e s m arr y s' arr', wf_mem w m -> laid_out w m lo arr ->
  (forall k, size arr k < 2 ^ 32) -> designates w lo arr e s ->
  spstep op s arr = Some (y, s', arr') ->
  exists e' m', pstep_hwy t (Hw o) h w op e m = Ok ((y, e'), m') /\ follows w lo m m' arr arr' /\
    designates w lo arr' e' s'.
Proof.
  intros op e s m arr y s' arr' W L Sm D H.
  destruct (spstep_ok w lo Vw t (Hw o) Ht I H64 op e s m arr y s' arr' W L Sm D H)
    as (e' & m' & E & F & D').
  destruct (pstep_hwy_same op e s m arr y s' arr' W L Sm D H) as [Q|(x & m1 & m2 & E1 & E2 & Q)].
  - exists e', m'. rewrite Q. auto.
  - rewrite E in E2. injection E2 as <- <-. exists e', m1. split; [exact E1|].
    split; [|exact D']. apply (follows_ext m m1 m'); assumption.
Qed.

Lemma sprun_hwy_ok : forall A n (c : prog A) m arr e s, wf_mem w m ->
  laid_out w m lo arr -> (forall k, size arr k < 2 ^ 32) -> designates w lo arr e s ->
  match sprun n c s arr with
  | Returned a arr' => exists m', prun_hwy t (Hw o) h w n c e m = Ok (a, m') /\ follows w lo m m' arr arr'
  | Running => prun_hwy t (Hw o) h w n c e m = Fuel
  | NotAllowed => True
  end.
Proof.
  intros A n. induction n as [|n IH]; intros c m arr e s W L Sm D; [reflexivity|].
  destruct c as [a|op k]; cbn [sprun prun_hwy].
  - exists m. split; [reflexivity|]. apply follows_refl; assumption.
  - destruct (spstep op s arr) as [[[y s'] arr']|] eqn:E; [|exact I].
    destruct (spstep_hwy_ok op e s m arr y s' arr' W L Sm D E) as (e' & m' & E1 & F & D').
    destruct F as (W' & S' & Z' & L' & O').
    specialize (IH (k y) m' arr' e' s' W' L' ltac:(intros l; rewrite Z'; apply Sm) D').
    unfold bind at 1. unfold bind at 1. rewrite E1. cbn [fst snd].
    destruct (sprun n (k y) s' arr') as [a arr2| |]; [|exact IH|exact I].
    destruct IH as (m2 & E2 & W2 & S2 & Z2 & L2 & O2). exists m2. split; [exact E2|].
    split; [exact W2|]. split; [eapply same_dom_trans; eassumption|].
    split; [intros; rewrite Z2; apply Z'|]. split; [exact L2|].
    intros x Hx. rewrite O2; [apply O', Hx|]. intros l i Hi. rewrite Z' in Hi. apply Hx, Hi.
Qed.
End Prog.

Lemma hwy_programs_ok : forall A t o h w m lo arr n (c : prog A) e s,
  valid_w w -> w <= 64 -> vector_fits h w -> (exists c, t = X86 c) \/ t = Neon true ->
  wf_mem w m -> laid_out w m lo arr -> (forall k, size arr k < 2 ^ 32) -> designates w lo arr e s ->
  match sprun n c s arr with
  | Returned a arr' => exists m', prun_hwy t (Hw o) h w n c e m = Ok (a, m') /\ wf_mem w m' /\
      same_dom m m' /\ laid_out w m' lo arr' /\ forall i, elsewhere lo arr i -> bit w m' i = bit w m i
  | Running => prun_hwy t (Hw o) h w n c e m = Fuel
  | NotAllowed => True
  end.
Proof.
  intros A t o h w m lo arr n c e s Vw H64 Hfit Ht W L Sm D.
  pose proof (sprun_hwy_ok w lo t o h Vw H64 Hfit Ht A n c m arr e s W L Sm D) as H.
  destruct (sprun n c s arr) as [a arr'| |]; [|exact H|exact I].
  destruct H as (m' & E & W' & S' & _ & L' & O'). exists m'. auto.
Qed.

(** The two builds on the same memory. *)
Lemma hwy_builds_ok : forall A t o h w m lo arr n (c : prog A) e s,
  valid_w w -> w <= 64 -> vector_fits h w -> (exists c, t = X86 c) \/ t = Neon true ->
  wf_mem w m -> laid_out w m lo arr -> (forall k, size arr k < 2 ^ 32) -> designates w lo arr e s ->
  sprun n c s arr <> NotAllowed ->
  (prun_hwy t (Hw o) h w n c e m = Fuel /\ prun t (Hw o) w n c e m = Fuel) \/
  agree (prun_hwy t (Hw o) h w n c e) (prun t (Hw o) w n c e) m.
Proof.
  intros A t o h w m lo arr n c e s Vw H64 Hfit Ht W L Sm D N. pose proof (valid_pos w Vw) as Pw.
  pose proof (sprun_hwy_ok w lo t o h Vw H64 Hfit Ht A n c m arr e s W L Sm D) as H1.
  pose proof (sprun_ok w lo t (Hw o) Vw H64 Ht I A n c m arr e s W L Sm D) as H2.
  destruct (sprun n c s arr) as [a arr'| |]; [right|left; auto|contradiction].
  destruct H1 as (m1 & E1 & W1 & S1 & Z1 & (X1 & _) & O1), H2 as (m2 & E2 & W2 & S2 & Z2 & (X2 & _) & O2).
  exists a, m1, m2. split; [exact E1|]. split; [exact E2|].
  assert (B : forall i, bit w m1 i = bit w m2 i).
  { intros i. destruct (bool_dec (bit w m1 i) (bit w m2 i)) as [Q|Q]; [exact Q|exfalso].
    assert (K : elsewhere lo arr i).
    { intros k j Hj ->. apply Q. destruct (X1 k) as (_ & _ & Y1), (X2 k) as (_ & _ & Y2).
      rewrite Y1, Y2 by (rewrite ?Z1, ?Z2; exact Hj). reflexivity. }
    apply Q. rewrite O1, O2 by exact K. reflexivity. }
  apply (updated_same w m1 m1 m2 0 0 (fun _ => false)); [lia|apply updated_refl; [exact W1|lia]|].
  split; [exact W2|]. split.
  - intros x. pose proof (S1 x). pose proof (S2 x). tauto.
  - intros i. unfold inr. replace ((0 <=? i) && (i <? 0)) with false by lia. symmetry. apply B.
Qed.
