(** Programs in the BITLIB_HWY build under the rules of the language. *)
From Coq Require Import ZArith Bool List Lia.
From Coq Require Import ZifyBool.
From Verif Require Import Base WordOps IterModel RefModel PopcntModel AlgModel TransformModel
  ShiftModel SwapModel ReverseModel RotateModel HwyModel HwyAlgModel GenericModel ProgModel
  HwyProgModel Spec SpecRef SpecHwy SpecStd SpecVec SpecPoint SpecGeneric SpecProg SpecHwyProg
  ProofBase ProofIter ProofWord ProofRange ProofShift ProofHwy ProofVacated ProofOracle
  ProofThread ProofSteps ProofReverse ProofVec ProofVec2 ProofGeneric ProofProg ProofHwyRight ProofHwyAlg
  ProofHwyVec ProofHwyAlgLang ProofHwyClient ProofHwyProg.
Import ListNotations.
Open Scope Z_scope.
Ltac Zify.zify_post_hook ::= idtac.

Section Prog.
Variables (w : Z) (lo : nat -> Z) (t : target) (p : policy) (h : simd_unit).
Hypothesis Vw : valid_w w.
Hypothesis H64 : w <= 64.
Hypothesis Hfit : vector_fits h w.
Hypothesis Ht : (exists c, t = X86 c) \/ t = Neon true.
Hypothesis Hb : full_blend_defined p w.

Lemma lanes_64 : lanes h <= 64.
Proof.
  pose proof (valid_pos w Vw) as Pw. destruct Hfit as [H1 H2].
  destruct (Z.leb_spec (lanes h) 64) as [C1|C1]; [exact C1|].
  rewrite Z.mod_small in H2 by nia. discriminate H2.
Qed.

(** The words an array has bits in. *)
Lemma array_words : forall m arr k a, laid_out w m lo arr -> 0 < size arr k ->
  lo k / w <= a -> a * w < lo k + size arr k -> m a <> None.
Proof.
  intros m arr k a (L & _) Hs H1 H2. destruct (L k) as (_ & Mp & _).
  pose proof (valid_pos w Vw) as W.
  destruct (Z.leb_spec (lo k) (a * w)) as [C|C].
  - rewrite <- (Z.div_mul a w) by lia. apply Mp. lia.
  - assert (E : lo k / w = a).
    { apply Z.le_antisymm; [exact H1|]. apply Z.div_le_lower_bound; lia. }
    rewrite <- E. apply Mp. lia.
Qed.

Lemma near_front : forall i c e f q, 0 <= c -> f <= i / w ->
  looked_at h w (i / w) ((e / w * w - c) / w) (e / w) q -> f - 62 <= q /\ q <= e / w - 1.
Proof.
  intros i c e f q Hc Hi (j & J1 & J2 & J3 & _). pose proof (valid_pos w Vw) as Pw.
  pose proof lanes_64. destruct Hfit as [H1 _].
  assert ((e / w * w - c) / w <= e / w).
  { transitivity (e / w * w / w); [apply Z.div_le_mono; lia|]. rewrite Z.div_mul; lia. }
  lia.
Qed.

Lemma pstep_inside_same : forall op e s m arr y s' arr', wf_mem w m -> laid_out w m lo arr ->
  (forall k, size arr k < 2 ^ 32) -> designates w lo arr e s ->
  spstep op s arr = Some (y, s', arr') -> op_inside h w lo op s ->
  pstep_hwy t p h w op e m = pstep t p w op e m \/
  agree (pstep_hwy t p h w op e) (pstep t p w op e) m.
Proof.
  intros op e s m arr y s' arr' W L Sm D H In. pose proof (valid_pos w Vw) as Pw.
  assert (RG : forall x y k i k' j, sit s x = Some (k, i) -> sit s y = Some (k', j) ->
    Nat.eqb k k' && (i <=? j) && (0 <? size arr k) = true ->
    k' = k /\ i <= j /\ 0 < size arr k /\
    good_range w m (eit e x) (eit e y) /\ addr w (eit e x) = lo k + i /\
    addr w (eit e y) = lo k + j /\ 0 <= i /\ j <= size arr k).
  { intros x y0 k i k' j E1 E2 C. destruct (Nat.eqb_spec k k') as [<-|N]; [|discriminate C].
    cbn [andb] in C. split; [reflexivity|]. split; [lia|]. split; [lia|].
    apply (range_ok w lo e s m arr x y0 k i j L D E1 E2). lia. }
  assert (SH : forall k a b n q, 0 < size arr k -> 0 <= n -> lo k <= a -> b <= lo k + size arr k ->
    looked_at h w (a / w) ((b / w * w - n) / w) (b / w) q -> lo k / w <= q -> m q <> None).
  { intros k a b n q S0 Hn Ha Hb' Lk Hq.
    assert (F : lo k / w <= a / w) by (apply Z.div_le_mono; lia).
    destruct (near_front a n b (lo k / w) q Hn F Lk) as [_ Q2].
    apply (array_words m arr k q L S0 Hq).
    pose proof (Z.mul_div_le b w ltac:(lia)). nia. }
  destruct op; cbn [spstep] in H; cbv zeta in H; cbn [op_inside] in In; cbn [pstep_hwy pstep]; cbv zeta;
    match goal with
    | |- ?a = ?b \/ _ => first [constr_eq a b; left; exact eq_refl | right]
    end.
  - repeat opt1. destruct (RG _ _ _ _ _ _ E E0 C) as (-> & C1 & C2 & G & A1 & A2 & B1 & B2).
    apply agree_ret, fill_hwy_same; assumption.
  - repeat opt1. destruct (RG _ _ _ _ _ _ E E0 C) as (-> & C1 & C2 & G & A1 & A2 & B1 & B2).
    pose proof (Sm k) as Sk. pose proof G as (V1 & V2 & _).
    assert (Hm : addr w (eit e y0) - addr w (eit e x) + 2 * w <= max_bits)
      by (rewrite A1, A2; unfold max_bits; lia).
    assert (He : addr w (eit e x) = addr w (eit e y0) -> ip (eit e x) = 0 \/ m (ib (eit e x)) <> None).
    { intros _. destruct (Z.eq_dec (ip (eit e x)) 0) as [Z0|Z0]; [left; exact Z0|right].
      apply (word_ok w lo Vw m arr k i (eit e x) L); assumption || lia. }
    apply agree_ret.
    destruct (reverse_hwy_inside p h w m (eit e x) (eit e y0) Vw Hfit W G Hm He) as (m1 & E1 & U1).
    { right; right; right; exact Hb. }
    { rewrite (word_of w), A1, A2 by assumption.
      replace (ip (eit e x)) with ((lo k + i) mod w) by (rewrite <- A1; symmetry; unfold valid_it, addr in *; apply Z.mod_unique with (ib (eit e x)); lia).
      intros Q a La. left. specialize (In Q a La).
      apply (array_words m arr k a L C2 In).
      destruct La as (q & J1 & J2 & J3 & _). destruct Hfit as [F1 _].
      pose proof (Z.mul_div_le (lo k + i0 + (w - 1)) w ltac:(lia)). nia. }
    destruct (reverse_ok p w m (eit e x) (eit e y0) Vw W G Hm He) as (m2 & E2 & U2).
    { right; right; right; exact Hb. }
    exists tt, m1, m2. split; [exact E1|]. split; [exact E2|].
    exact (updated_same w m m1 m2 _ _ _ ltac:(lia) U1 U2).
  - repeat opt1. destruct (RG _ _ _ _ _ _ E E0 C) as (-> & C1 & C2 & G & A1 & A2 & B1 & B2).
    destruct (Nat.eqb_spec k1 k) as [->|N]; [|discriminate C0]. cbn [andb] in C0.
    pose proof (proj1 D _ _ _ E1) as (_ & Vn & An).
    apply agree_ret, rotate_hwy_inside; try assumption; [rewrite A1, A2, An; lia|left; exact H64|].
    rewrite A1, A2, An. intros a b n Er Hn q Lq. left.
    replace (lo k + i1 - (lo k + i)) with (i1 - i) in Er by ring.
    replace (lo k + i0 - (lo k + i1)) with (i0 - i1) in Er by ring.
    assert (Fx : lo k + i <= a /\ b <= lo k + i + (i1 - i) + (i0 - i1) /\ 0 < n)
      by (unfold rotate_shift in Er; destruct (i1 - i <=? w); [discriminate Er|];
          apply last_shift_facts in Er; lia).
    apply (SH k a b n q); try lia; [exact Lq|]. apply (In a b n Er Hn q Lq).
  - repeat opt1. destruct (RG _ _ _ _ _ _ E E0 C) as (-> & C1 & C2 & G & A1 & A2 & B1 & B2).
    pose proof G as (V1 & V2 & Hl & Gm).
    apply agree_ret, agree_bind.
    { apply shift_left_hwy_same; try assumption. intros _. right; right; exact Hb. }
    intros r' m1 m2 _ Es Q.
    destruct (any_shift_left w Vw t p Ht Hb m _ _ n W G) as (r2 & m2' & Es' & Vr & Ar & W1 & S1 & F1 & F2).
    rewrite Es in Es'. injection Es' as <- <-.
    apply fill_hwy_both; try assumption.
    split; [exact Vr|]. split; [exact V2|]. split; [lia|].
    intros a Ha. apply (ProofProg.mapped_dom w m m2 _ _ S1 Gm). lia.
  - repeat opt1. destruct (RG _ _ _ _ _ _ E E0 C) as (-> & C1 & C2 & G & A1 & A2 & B1 & B2).
    pose proof G as (V1 & V2 & Hl & Gm).
    apply agree_ret, agree_bind.
    { destruct (Z.leb_spec n 0) as [Cn|Cn].
      { destruct (shifts_hwy_none p h w m _ _ n Vw G) as [N2 _].
        destruct (shift_right_none p w m _ _ n Vw G) as [S1 _].
        exists (eit e x), m, m. split; [apply N2, Cn|]. split; [apply S1, Cn|reflexivity]. }
      apply shift_right_hwy_same; try assumption; [|intros _; right; right; exact Hb].
      rewrite !(word_of w), A1, A2 by assumption. intros Hn q Lq. apply may_point_in. left.
      apply (SH k (lo k + i) (lo k + i0) n q); try lia; [exact Lq|]. apply (In Cn Hn q Lq). }
    intros r' m1 m2 _ Es Q.
    destruct (any_shift_right w Vw t p Ht Hb m _ _ n W G) as (r2 & m2' & Es' & Vr & Ar & W1 & S1 & F1 & F2).
    rewrite Es in Es'. injection Es' as <- <-.
    apply fill_hwy_both; try assumption.
    split; [exact V1|]. split; [exact Vr|]. split; [lia|].
    intros a Ha. apply (ProofProg.mapped_dom w m m2 _ _ S1 Gm). lia.
  - repeat opt1. destruct (RG _ _ _ _ _ _ E E0 C) as (-> & C1 & C2 & G & A1 & A2 & B1 & B2).
    pose proof G as (V1 & V2 & _).
    apply agree_ret, find_hwy_same; try assumption.
    intros N. apply (word_ok w lo Vw m arr k i (eit e x) L); assumption || lia.
Qed.

Lemma spstep_inside_ok : forall op e s m arr y s' arr', wf_mem w m -> laid_out w m lo arr ->
  (forall k, size arr k < 2 ^ 32) -> designates w lo arr e s ->
  spstep op s arr = Some (y, s', arr') -> op_inside h w lo op s ->
  exists e' m', pstep_hwy t p h w op e m = Ok ((y, e'), m') /\ follows w lo m m' arr arr' /\
    designates w lo arr' e' s'.
Proof.
  intros op e s m arr y s' arr' W L Sm D H In.
  destruct (spstep_ok w lo Vw t p Ht Hb H64 op e s m arr y s' arr' W L Sm D H)
    as (e' & m' & E & F & D').
  destruct (pstep_inside_same op e s m arr y s' arr' W L Sm D H In) as [Q|(x & m1 & m2 & E1 & E2 & Q)].
  - exists e', m'. rewrite Q. auto.
  - rewrite E in E2. injection E2 as <- <-. exists e', m1. split; [exact E1|].
    split; [|exact D']. apply (follows_ext w lo m m1 m'); assumption.
Qed.

Lemma sprun_inside_ok : forall A n (c : prog A) m arr e s, wf_mem w m ->
  laid_out w m lo arr -> (forall k, size arr k < 2 ^ 32) -> designates w lo arr e s ->
  prog_inside h w lo n c s arr ->
  match sprun n c s arr with
  | Returned a arr' => exists m', prun_hwy t p h w n c e m = Ok (a, m') /\ follows w lo m m' arr arr'
  | Running => prun_hwy t p h w n c e m = Fuel
  | NotAllowed => True
  end.
Proof.
  intros A n. induction n as [|n IH]; intros c m arr e s W L Sm D In; [reflexivity|].
  destruct c as [a|op k]; cbn [sprun prun_hwy prog_inside] in *.
  - exists m. split; [reflexivity|]. apply follows_refl; assumption.
  - destruct (spstep op s arr) as [[[y s'] arr']|] eqn:E; [|exact I]. destruct In as (I1 & I2).
    destruct (spstep_inside_ok op e s m arr y s' arr' W L Sm D E I1) as (e' & m' & E1 & F & D').
    destruct F as (W' & S' & Z' & L' & O').
    specialize (IH (k y) m' arr' e' s' W' L' ltac:(intros l; rewrite Z'; apply Sm) D' I2).
    unfold bind at 1. unfold bind at 1. rewrite E1. cbn [fst snd].
    destruct (sprun n (k y) s' arr') as [a arr2| |]; [|exact IH|exact I].
    destruct IH as (m2 & E2 & W2 & S2 & Z2 & L2 & O2). exists m2. split; [exact E2|].
    split; [exact W2|]. split; [eapply same_dom_trans; eassumption|].
    split; [intros; rewrite Z2; apply Z'|]. split; [exact L2|].
    intros x Hx. rewrite O2; [apply O', Hx|]. intros l i Hi. rewrite Z' in Hi. apply Hx, Hi.
Qed.

(** An operation that looks at a word in front of its array, in a memory without such
    words. *)
Lemma pstep_front : forall op e s m arr y s' arr', p = Strict17 \/ p = Strict20 ->
  wf_mem w m -> laid_out w m lo arr -> alone w m lo arr ->
  (forall k, size arr k < 2 ^ 32) -> designates w lo arr e s ->
  spstep op s arr = Some (y, s', arr') ->
  pstep_hwy t p h w op e m <> UB OutOfBounds -> op_inside h w lo op s.
Proof.
  intros op e s m arr y s' arr' Hp W L Al Sm D H N. pose proof (valid_pos w Vw) as Pw.
  assert (RG : forall x y k i k' j, sit s x = Some (k, i) -> sit s y = Some (k', j) ->
    Nat.eqb k k' && (i <=? j) && (0 <? size arr k) = true ->
    k' = k /\ i <= j /\ 0 < size arr k /\
    good_range w m (eit e x) (eit e y) /\ addr w (eit e x) = lo k + i /\
    addr w (eit e y) = lo k + j /\ 0 <= i /\ j <= size arr k).
  { intros x y0 k i k' j E1 E2 C. destruct (Nat.eqb_spec k k') as [<-|Nk]; [|discriminate C].
    cbn [andb] in C. split; [reflexivity|]. split; [lia|]. split; [lia|].
    apply (range_ok w lo e s m arr x y0 k i j L D E1 E2). lia. }
  destruct op; cbn [op_inside]; try exact I; cbn [spstep] in H; cbv zeta in H;
    cbn [pstep_hwy] in N; cbv zeta in N.
  - repeat opt1. destruct (RG _ _ _ _ _ _ E E0 C) as (-> & C1 & C2 & G & A1 & A2 & B1 & B2).
    pose proof (Sm k) as Sk. pose proof G as (V1 & V2 & _).
    cbv zeta. intros Q q Lq. destruct (Z.leb_spec (lo k / w) q) as [Cq|Cq]; [exact Cq|].
    exfalso. apply N. apply bind_ub_now.
    assert (Nq : lo k / w - 62 <= q).
    { assert (lo k / w <= (lo k + i) / w) by (apply Z.div_le_mono; lia).
      destruct Lq as (j & J1 & J2 & J3 & _). pose proof lanes_64. lia. }
    apply (reverse_hwy_pointer p h w m (eit e x) (eit e y0) q); try assumption.
    + rewrite A1, A2; unfold max_bits; lia.
    + rewrite A2. replace (ip (eit e x)) with ((lo k + i) mod w); [exact Q|].
      rewrite <- A1. symmetry; unfold valid_it, addr in *; apply Z.mod_unique with (ib (eit e x)); lia.
    + rewrite (word_of w), A1, A2 by assumption. exact Lq.
    + apply (Al k); lia.
    + apply (Al k); lia.
  - repeat opt1. destruct (RG _ _ _ _ _ _ E E0 C) as (-> & C1 & C2 & G & A1 & A2 & B1 & B2).
    destruct (Nat.eqb_spec k1 k) as [->|Nk]; [|discriminate C0]. cbn [andb] in C0.
    pose proof (proj1 D _ _ _ E1) as (_ & Vn & An).
    intros a b n Er Hn q Lq. destruct (Z.leb_spec (lo k / w) q) as [Cq|Cq]; [exact Cq|].
    exfalso. apply N. apply bind_ub_now.
    assert (Fx : lo k + i <= a /\ b <= lo k + i + (i1 - i) + (i0 - i1) /\ 0 < n)
      by (unfold rotate_shift in Er; destruct (i1 - i <=? w); [discriminate Er|];
          apply last_shift_facts in Er; lia).
    destruct (near_front a n b (lo k / w) q ltac:(lia) ltac:(apply Z.div_le_mono; lia) Lq) as [Nq _].
    apply (rotate_hwy_pointer p h w m _ _ _ a b n q); try assumption.
    + rewrite A1, A2, An; lia.
    + rewrite A1, A2, An. replace (lo k + i1 - (lo k + i)) with (i1 - i) by ring.
      replace (lo k + i0 - (lo k + i1)) with (i0 - i1) by ring. exact Er.
    + apply (Al k); lia.
    + apply (Al k); lia.
  - repeat opt1. destruct (RG _ _ _ _ _ _ E E0 C) as (-> & C1 & C2 & G & A1 & A2 & B1 & B2).
    pose proof G as (V1 & V2 & _).
    intros Cn Hn q Lq. destruct (Z.leb_spec (lo k / w) q) as [Cq|Cq]; [exact Cq|].
    exfalso. apply N. apply bind_ub_now, bind_ub_now.
    destruct (near_front (lo k + i) n (lo k + i0) (lo k / w) q ltac:(lia) ltac:(apply Z.div_le_mono; lia) Lq)
      as [Nq _].
    assert (Hlen : n < i0 - i).
    { destruct Lq as (j & J1 & J2 & J3 & _). destruct (Z.ltb_spec n (i0 - i)) as [D1|D1]; [exact D1|].
      pose proof (Z.mul_div_le (lo k + i0) w ltac:(lia)).
      assert (((lo k + i0) / w * w - n) / w <= (lo k + i) / w) by (apply Z.div_le_mono; lia). lia. }
    apply (shift_right_pointer p h w m _ _ n q); try assumption.
    + lia.
    + rewrite !(word_of w), A1, A2 by assumption. exact Lq.
    + apply (Al k); lia.
    + apply (Al k); lia.
Qed.

Lemma sprun_front : forall A n (c : prog A) m arr e s, p = Strict17 \/ p = Strict20 ->
  wf_mem w m -> laid_out w m lo arr -> alone w m lo arr ->
  (forall k, size arr k < 2 ^ 32) -> designates w lo arr e s -> sprun n c s arr <> NotAllowed ->
  prun_hwy t p h w n c e m <> UB OutOfBounds -> prog_inside h w lo n c s arr.
Proof.
  intros A n. induction n as [|n IH]; intros c m arr e s Hp W L Al Sm D N1 N2; [exact I|].
  destruct c as [a|op k]; cbn [sprun prun_hwy prog_inside] in *; [exact I|].
  destruct (spstep op s arr) as [[[y s'] arr']|] eqn:E; [|exact I].
  assert (I1 : op_inside h w lo op s).
  { apply (pstep_front op e s m arr y s' arr'); try assumption.
    intros Q. apply N2. apply bind_ub_now, Q. }
  split; [exact I1|].
  destruct (spstep_inside_ok op e s m arr y s' arr' W L Sm D E I1) as (e' & m' & E1 & F & D').
  destruct F as (W' & S' & Z' & L' & O').
  apply (IH (k y) m' arr' e' s' Hp W' L'); try assumption.
  - intros l a Hs Ha. rewrite Z' in Hs. apply S', (Al l a Hs Ha).
  - intros l. rewrite Z'. apply Sm.
  - intros Q. apply N2. unfold bind at 1. rewrite E1. exact Q.
Qed.
End Prog.

Lemma programs_lang_ok : forall A t p h w m lo arr n (c : prog A) e s,
  valid_w w -> w <= 64 -> full_blend_defined p w -> vector_fits h w ->
  (exists c, t = X86 c) \/ t = Neon true ->
  wf_mem w m -> laid_out w m lo arr -> (forall k, size arr k < 2 ^ 32) ->
  designates w lo arr e s -> prog_inside h w lo n c s arr ->
  match sprun n c s arr with
  | Returned a arr' => exists m', prun_hwy t p h w n c e m = Ok (a, m') /\ wf_mem w m' /\
      same_dom m m' /\ laid_out w m' lo arr' /\ forall i, elsewhere lo arr i -> bit w m' i = bit w m i
  | Running => prun_hwy t p h w n c e m = Fuel
  | NotAllowed => True
  end.
Proof.
  intros A t p h w m lo arr n c e s Vw H64 Hb Hfit Ht W L Sm D In.
  pose proof (sprun_inside_ok w lo t p h Vw H64 Hfit Ht Hb A n c m arr e s W L Sm D In) as H.
  destruct (sprun n c s arr) as [a arr'| |]; [|exact H|exact I].
  destruct H as (m' & E & W' & S' & _ & L' & O'). exists m'. auto.
Qed.

Lemma programs_undefined_iff : forall A t p h w m lo arr n (c : prog A) e s,
  p = Strict17 \/ p = Strict20 ->
  valid_w w -> w <= 64 -> full_blend_defined p w -> vector_fits h w ->
  (exists c, t = X86 c) \/ t = Neon true ->
  wf_mem w m -> laid_out w m lo arr -> alone w m lo arr -> (forall k, size arr k < 2 ^ 32) ->
  designates w lo arr e s -> sprun n c s arr <> NotAllowed ->
  (prun_hwy t p h w n c e m = UB OutOfBounds <-> ~ prog_inside h w lo n c s arr).
Proof.
  intros A t p h w m lo arr n c e s Hp Vw H64 Hb Hfit Ht W L Al Sm D N. split.
  - intros E In. pose proof (sprun_inside_ok w lo t p h Vw H64 Hfit Ht Hb A n c m arr e s W L Sm D In) as H.
    destruct (sprun n c s arr) as [a arr'| |]; [|rewrite E in H; discriminate H|contradiction].
    destruct H as (m' & E' & _). rewrite E in E'. discriminate E'.
  - intros In. destruct (is_oob _ (prun_hwy t p h w n c e m)) as [E|E]; [exact E|].
    exfalso. apply In.
    apply (sprun_front w lo t p h Vw H64 Hfit Ht Hb A n c m arr e s); assumption.
Qed.

Lemma programs_language_ok : forall A t h w m lo arr n (c : prog A) e s,
  valid_w w -> w < 32 -> vector_fits h w -> (exists c, t = X86 c) \/ t = Neon true ->
  wf_mem w m -> laid_out w m lo arr -> (forall k, size arr k < 2 ^ 32) ->
  designates w lo arr e s -> prog_inside h w lo n c s arr ->
  match sprun n c s arr with
  | Returned a arr' => exists m', prun_hwy t Strict20 h w n c e m = Ok (a, m') /\ wf_mem w m' /\
      same_dom m m' /\ laid_out w m' lo arr' /\ forall i, elsewhere lo arr i -> bit w m' i = bit w m i
  | Running => prun_hwy t Strict20 h w n c e m = Fuel
  | NotAllowed => True
  end.
Proof. intros. apply programs_lang_ok; assumption || lia. Qed.

Lemma programs_language_exact : forall A t h w m lo arr n (c : prog A) e s,
  valid_w w -> w < 32 -> vector_fits h w -> (exists c, t = X86 c) \/ t = Neon true ->
  wf_mem w m -> laid_out w m lo arr -> alone w m lo arr -> (forall k, size arr k < 2 ^ 32) ->
  designates w lo arr e s -> sprun n c s arr <> NotAllowed ->
  (prun_hwy t Strict20 h w n c e m = UB OutOfBounds <-> ~ prog_inside h w lo n c s arr).
Proof. intros. apply programs_undefined_iff; auto; lia. Qed.
