(** Client programs on bits do what they do on arrays of booleans. *)
From Coq Require Import ZArith Bool List Lia ZifyBool.
From Verif Require Import Base WordOps IterModel RefModel GenericModel Spec SpecRef SpecGeneric
  ProofBase ProofIter ProofRef ProofReference ProofPointer.
Import ListNotations.
Open Scope Z_scope.
Ltac Zify.zify_post_hook ::= idtac.

(** ** Arrays *)

Lemma put_same : forall T (f : nat -> T) x v, put f x v x = v.
Proof. intros. unfold put. rewrite Nat.eqb_refl. reflexivity. Qed.

Lemma put_other : forall T (f : nat -> T) x v y, y <> x -> put f x v y = f y.
Proof. intros. unfold put. destruct (Nat.eqb_spec y x); [contradiction|reflexivity]. Qed.

Lemma nth_replace : forall (l : list bool) b n j, (n < length l)%nat ->
  nth j (firstn n l ++ b :: skipn (S n) l) false = if Nat.eqb j n then b else nth j l false.
Proof.
  induction l as [|x l IH]; intros b n j H; [cbn in H; lia|].
  destruct n as [|n]; [destruct j; reflexivity|].
  destruct j as [|j]; [reflexivity|]. cbn [firstn skipn app nth Nat.eqb]. apply IH. cbn in H. lia.
Qed.

Lemma length_replace : forall (l : list bool) b n, (n < length l)%nat ->
  length (firstn n l ++ b :: skipn (S n) l) = length l.
Proof.
  intros l b n H. rewrite app_length, firstn_length_le by lia. cbn [length].
  rewrite skipn_length. lia.
Qed.

Lemma element_range : forall arr k i, element_at arr (k, i) = true <-> 0 <= i < size arr k.
Proof. intros. unfold element_at. cbn [fst snd]. lia. Qed.

Lemma exists_range : forall arr k i, exists_at arr (k, i) = true <-> 0 <= i <= size arr k.
Proof. intros. unfold exists_at. cbn [fst snd]. lia. Qed.

Lemma size_write : forall arr x b, element_at arr x = true -> forall l, size (write arr x b) l = size arr l.
Proof.
  intros arr [k i] b H l. apply element_range in H. unfold size, write in *. cbn [fst snd].
  destruct (Nat.eq_dec l k) as [->|N]; [|rewrite put_other by assumption; reflexivity].
  rewrite put_same, length_replace by lia. reflexivity.
Qed.

Lemma elem_write : forall arr k i b, 0 <= i < size arr k -> forall l j, 0 <= j ->
  elem (write arr (k, i) b) (l, j) = if Nat.eqb l k && (j =? i) then b else elem arr (l, j).
Proof.
  intros arr k i b H l j Hj. unfold elem, write, size in *. cbn [fst snd].
  destruct (Nat.eqb_spec l k) as [->|N]; [|rewrite put_other by assumption; reflexivity].
  rewrite put_same, nth_replace by lia. cbn [andb].
  destruct (Nat.eqb_spec (Z.to_nat j) (Z.to_nat i)), (Z.eqb_spec j i); try reflexivity; lia.
Qed.

(** Memory after a change of some elements. *)
Section Layout.
Variables (w : Z) (lo : nat -> Z).
Hypothesis Vw : valid_w w.

Lemma wpos : 8 <= w <= 128. Proof. apply valid_pos, Vw. Qed.

Lemma lay_mapped : forall m arr k i, laid_out w m lo arr -> 0 <= i < size arr k ->
  mapped w m (lo k + i) (lo k + i + 1).
Proof. intros m arr k i (L & _) Hi j Hj. destruct (L k) as (_ & M & _). apply M. lia. Qed.

Lemma lay_change : forall m m' arr arr', laid_out w m lo arr -> same_dom m m' ->
  (forall k, size arr' k = size arr k) ->
  (forall k i, 0 <= i < size arr k -> bit w m' (lo k + i) = elem arr' (k, i)) -> laid_out w m' lo arr'.
Proof.
  intros m m' arr arr' (L & D) S Z B. split.
  - intros k. rewrite Z. destruct (L k) as (L1 & L2 & _). split; [exact L1|]. split; [|auto].
    intros i Hi N. apply (L2 i Hi), S, N.
  - intros k l i j. rewrite !Z. apply D.
Qed.

Lemma lay_write : forall m m' arr k i b, laid_out w m lo arr -> 0 <= i < size arr k ->
  updated w m m' (lo k + i) (lo k + i + 1) (fun _ => b) ->
  laid_out w m' lo (write arr (k, i) b) /\ forall a, elsewhere lo arr a -> bit w m' a = bit w m a.
Proof.
  intros m m' arr k i b L Hi (W & S & B). split.
  - eapply lay_change; [exact L|exact S|apply size_write, element_range, Hi|].
    intros l j Hj. rewrite B, elem_write by (assumption || lia). destruct L as (L & D). unfold inr.
    destruct (Nat.eqb_spec l k) as [->|N].
    + destruct (L k) as (_ & _ & E). cbn [andb]. rewrite E by lia.
      destruct (Z.eqb_spec j i) as [->|]; [|replace ((lo k + i <=? lo k + j) && (lo k + j <? lo k + i + 1)) with false by lia; reflexivity].
      replace ((lo k + i <=? lo k + i) && (lo k + i <? lo k + i + 1)) with true by lia. reflexivity.
    + destruct (L l) as (_ & _ & E). cbn [andb]. rewrite E by lia. specialize (D l k j i N Hj Hi).
      replace ((lo k + i <=? lo l + j) && (lo l + j <? lo k + i + 1)) with false by lia. reflexivity.
  - intros a Ha. rewrite B. unfold inr. specialize (Ha k i Hi).
    replace ((lo k + i <=? a) && (a <? lo k + i + 1)) with false by lia. reflexivity.
Qed.

Lemma lay_swap : forall m m' arr k i l j, laid_out w m lo arr -> 0 <= i < size arr k ->
  0 <= j < size arr l -> same_dom m m' ->
  (forall a, bit w m' a = if a =? lo k + i then bit w m (lo l + j) else
                          if a =? lo l + j then bit w m (lo k + i) else bit w m a) ->
  laid_out w m' lo (write (write arr (k, i) (elem arr (l, j))) (l, j) (elem arr (k, i))) /\
  forall a, elsewhere lo arr a -> bit w m' a = bit w m a.
Proof.
  intros m m' arr k i l j L Hi Hj S B. split.
  - assert (Z1 : forall n, size (write arr (k, i) (elem arr (l, j))) n = size arr n)
      by (apply size_write, element_range, Hi).
    eapply lay_change; [exact L|exact S|intros n; rewrite size_write; [apply Z1|apply element_range; rewrite Z1; exact Hj]|].
    intros n h Hh. rewrite B. rewrite elem_write by (rewrite ?Z1; lia). rewrite elem_write by lia.
    destruct L as (L & D). destruct (L k) as (_ & _ & Ek), (L l) as (_ & _ & El), (L n) as (_ & _ & En).
    rewrite Ek, El, En by assumption.
    assert (X : forall n' h', 0 <= h' < size arr n' -> (lo n + h =? lo n' + h') = Nat.eqb n n' && (h =? h')).
    { intros n' h' H'. destruct (Nat.eqb_spec n n') as [->|N]; [cbn [andb]; lia|].
      specialize (D n n' h h' N Hh H'). cbn [andb]. lia. }
    rewrite !X by assumption.
    destruct (Nat.eqb_spec n k) as [->|N1], (Z.eqb_spec h i) as [->|N2]; cbn [andb]; try reflexivity.
    destruct (Nat.eqb_spec k l) as [->|N3], (Z.eqb_spec i j) as [->|N4]; cbn [andb]; reflexivity.
  - intros a Ha. rewrite B. pose proof (Ha k i Hi). pose proof (Ha l j Hj).
    destruct (Z.eqb_spec a (lo k + i)); [contradiction|]. destruct (Z.eqb_spec a (lo l + j)); [contradiction|].
    reflexivity.
Qed.

(** ** Variables *)
Lemma des_sizes : forall arr arr' e s, (forall k, size arr' k = size arr k) ->
  designates w lo arr e s -> designates w lo arr' e s.
Proof.
  intros arr arr' e s Z (D1 & D2 & D3). split; [|split].
  - intros x k i E. destruct (D1 x k i E) as (H1 & H2). split; [|exact H2].
    apply exists_range. rewrite Z. apply exists_range, H1.
  - intros x k i E. destruct (D2 x k i E) as (H1 & H2). split; [|exact H2].
    apply element_range. rewrite Z. apply element_range, H1.
  - intros x k i E. destruct (D3 x k i E) as (H1 & H2). split; [|exact H2].
    apply exists_range. rewrite Z. apply exists_range, H1.
Qed.

Lemma put_cases : forall T (f : nat -> option T) x v y u, put f x (Some v) y = Some u ->
  (y = x /\ u = v) \/ (y <> x /\ f y = Some u).
Proof.
  intros T f x v y u H. unfold put in H. destruct (Nat.eqb_spec y x); [left|right; auto].
  injection H as ->. auto.
Qed.

Lemma des_it : forall arr e s x k i it, designates w lo arr e s -> exists_at arr (k, i) = true ->
  valid_it w it -> addr w it = lo k + i -> designates w lo arr (set_it e x it) (sput_it s x (k, i)).
Proof.
  intros arr e s x k i it (D1 & D2 & D3) H1 H2 H3. split; [|split; [exact D2|exact D3]].
  intros y l j E. cbn [sit sput_it] in E. apply put_cases in E. unfold set_it. cbn [eit].
  destruct E as [[-> E]|[N E]].
  - injection E as -> ->. rewrite put_same. auto.
  - rewrite put_other by exact N. apply D1, E.
Qed.

Lemma des_re : forall arr e s x k i r, designates w lo arr e s -> element_at arr (k, i) = true ->
  refers_to w r (lo k + i) -> designates w lo arr (set_re e x r) (sput_re s x (k, i)).
Proof.
  intros arr e s x k i r (D1 & D2 & D3) H1 H2. split; [exact D1|split; [|exact D3]].
  intros y l j E. cbn [sre sput_re] in E. apply put_cases in E. unfold set_re. cbn [ere].
  destruct E as [[-> E]|[N E]].
  - injection E as -> ->. rewrite put_same. auto.
  - rewrite put_other by exact N. apply D2, E.
Qed.

Lemma des_pt : forall arr e s x k i q, designates w lo arr e s -> exists_at arr (k, i) = true ->
  points_to w q (lo k + i) -> designates w lo arr (set_pt e x q) (sput_pt s x (k, i)).
Proof.
  intros arr e s x k i r (D1 & D2 & D3) H1 H2. split; [exact D1|split; [exact D2|]].
  intros y l j E. cbn [spt sput_pt] in E. apply put_cases in E. unfold set_pt. cbn [ept].
  destruct E as [[-> E]|[N E]].
  - injection E as -> ->. rewrite put_same. auto.
  - rewrite put_other by exact N. apply D3, E.
Qed.

(** ** One operation *)
Variable p : policy.

(** The state after an operation. *)
Definition follows (m m' : mem) (arr arr' : arrays) : Prop :=
  wf_mem w m' /\ same_dom m m' /\ (forall k, size arr' k = size arr k) /\ laid_out w m' lo arr' /\
  forall a, elsewhere lo arr a -> bit w m' a = bit w m a.

Definition step_ok (o : op) (e : env) (m : mem) (arr : arrays) (y : reply) (s' : senv) (arr' : arrays) : Prop :=
  exists e' m', step p w o e m = Ok ((y, e'), m') /\ follows m m' arr arr' /\ designates w lo arr' e' s'.

Lemma follows_refl : forall m arr, wf_mem w m -> laid_out w m lo arr -> follows m m arr arr.
Proof.
  intros m arr W L. split; [exact W|]. split; [apply same_dom_refl|]. split; [reflexivity|].
  split; [exact L|reflexivity].
Qed.

Lemma iadd_moves : forall it n, valid_it w it -> - 2 ^ 62 <= n <= 2 ^ 62 ->
  exists r, iadd w it n = Ok r /\ valid_it w r /\ addr w r = addr w it + n.
Proof.
  intros it n V Hn.
  assert (H : rwp (iadd w it n) (fun r => valid_it w r /\ addr w r = addr w it + n))
    by (apply rwp_iadd; auto). unfold rwp in H. destruct (iadd w it n) as [r| | | |]; try contradiction. eauto.
Qed.

Lemma isub_moves : forall it n, valid_it w it -> - 2 ^ 62 <= n <= 2 ^ 62 ->
  exists r, isub w it n = Ok r /\ valid_it w r /\ addr w r = addr w it - n.
Proof.
  intros it n V Hn.
  assert (H : rwp (isub w it n) (fun r => valid_it w r /\ addr w r = addr w it - n))
    by (apply rwp_isub; auto). unfold rwp in H. destruct (isub w it n) as [r| | | |]; try contradiction. eauto.
Qed.

Lemma modified : forall o e s m arr r k i (f : bool -> bool) c, wf_mem w m -> laid_out w m lo arr ->
  designates w lo arr e s -> sre s r = Some (k, i) ->
  step p w o e m = (c ;; ret (NoReply, e)) m ->
  (refers_to w (ere e r) (lo k + i) -> mapped w m (lo k + i) (lo k + i + 1) ->
   writes w c m (lo k + i) (f (bit w m (lo k + i)))) ->
  step_ok o e m arr NoReply s (write arr (k, i) (f (elem arr (k, i)))).
Proof.
  intros o e s m arr r k i f c W L D E Es H. destruct D as (D1 & D2 & D3).
  destruct (D2 r k i E) as (Hi & R). pose proof (proj1 (element_range _ _ _) Hi) as Hr.
  destruct (H R (lay_mapped m arr k i L Hr)) as (m' & E' & U).
  pose proof U as (W' & S' & _). rewrite (proj2 (proj2 (proj1 L k)) i Hr) in U.
  destruct (lay_write m m' arr k i _ L Hr U) as (L' & O').
  exists e, m'. split; [rewrite Es; unfold bind; rewrite E'; reflexivity|]. split.
  - split; [exact W'|]. split; [exact S'|]. split; [apply size_write, Hi|]. auto.
  - eapply des_sizes; [apply size_write, Hi|]. split; [|split]; assumption.
Qed.

Lemma ref_of : forall it, valid_it w it -> ideref p w it = Ok (Ref (ib it) (2 ^ ip it)) /\
  refers_to w (Ref (ib it) (2 ^ ip it)) (addr w it).
Proof.
  intros it V. split; [apply mk_ref_eq; assumption|]. exists (ib it), (ip it).
  unfold addr. auto.
Qed.

Lemma index_of : forall it n, valid_it w it -> - 2 ^ 62 <= n <= 2 ^ 62 ->
  exists r, iindex p w it n = Ok r /\ refers_to w r (addr w it + n).
Proof.
  intros it n V Hn. pose proof wpos. assert (0 <= ip it < w) by exact V.
  destruct (iindex_deref p w it n Vw V ltac:(lia)) as (r & E1 & E2 & _).
  destruct (iadd_moves it n V Hn) as (r' & E1' & V' & A'). rewrite E1 in E1'. injection E1' as <-.
  eexists. split; [exact E2|]. rewrite <- A'. exists (ib r), (ip r). unfold addr. auto.
Qed.

Lemma deref_of : forall x i, points_to w x i -> exists r, ptr_deref x = Ok r /\ refers_to w r i.
Proof.
  intros x i (a & q & Hq & -> & ->). eexists. split; [reflexivity|]. exists a, q. auto.
Qed.

Ltac opt :=
  match goal with
  | H : given ?x _ = Some _ |- _ =>
    let E := fresh "E" in destruct x as [[? ?]|] eqn:E; [cbn [given] in H|discriminate H]
  | H : check ?b _ = Some _ |- _ =>
    let E := fresh "C" in destruct b eqn:E; [cbn [check] in H|discriminate H]
  | H : Some _ = Some _ |- _ => injection H as <- <- <-
  end.

Ltac done := eexists; eexists; split; [|split; [eassumption|]].

Lemma sstep_ok : forall o e s m arr y s' arr', wf_mem w m -> laid_out w m lo arr ->
  designates w lo arr e s -> sstep o s arr = Some (y, s', arr') -> step_ok o e m arr y s' arr'.
Proof.
  intros o e s m arr y s' arr' W L D H. pose proof wpos as Pw.
  pose proof D as (D1 & D2 & D3). pose proof (follows_refl m arr W L) as Fr.
  assert (Mx : forall k i, exists_at arr (k, i) = true -> 0 <= i <= 2 ^ 62).
  { intros k i Hk. apply exists_range in Hk. destruct (proj1 L k) as (X & _). unfold max_bits in X. lia. }
  assert (EX : forall k i, element_at arr (k, i) = true -> exists_at arr (k, i) = true).
  { intros k i Hk. apply element_range in Hk. apply exists_range. lia. }
  assert (Pm : forall i, 0 <= i mod w < w) by (intros; apply Z.mod_pos_bound; lia).
  assert (Mp : forall r k i, sre s r = Some (k, i) -> mapped w m (lo k + i) (lo k + i + 1)).
  { intros r k i E. apply (lay_mapped m arr k i L), element_range, (D2 r k i E). }
  destruct o; cbn [sstep] in H; unfold shifted in H; repeat (opt; cbn [fst snd] in *);
    try match goal with
    | E : sit s ?x = Some (?k, ?i) |- _ =>
      let A := fresh "A" in let V := fresh "V" in let B := fresh "B" in
      destruct (D1 x k i E) as (A & V & B); pose proof (Mx _ _ A)
    | E : spt s ?x = Some (?k, ?i) |- _ =>
      let A := fresh "A" in let V := fresh "P" in
      destruct (D3 x k i E) as (A & V); pose proof (Mx _ _ A); pose proof (Pm (lo k + i))
    end;
    repeat match goal with C : exists_at arr (?k, ?i) = true |- _ =>
      lazymatch goal with _ : 0 <= i <= 2 ^ 62 |- _ => fail | _ => pose proof (Mx _ _ C) end end;
    repeat match goal with C : element_at arr (?k, ?i) = true |- _ =>
      lazymatch goal with _ : 0 <= i <= 2 ^ 62 |- _ => fail | _ => pose proof (Mx _ _ (EX _ _ C)) end end.
  - (* ICopy *) done; [reflexivity|]. apply des_it; assumption.
  - (* IPlus *) destruct (iadd_moves _ n V ltac:(lia)) as (r & E1 & V1 & A1).
    done; [cbn [step]; rewrite E1; reflexivity|]. apply des_it; [assumption..|lia].
  - (* IMinus *) destruct (isub_moves _ n V ltac:(lia)) as (r & E1 & V1 & A1).
    done; [cbn [step]; rewrite E1; reflexivity|]. apply des_it; [assumption..|lia].
  - (* IAdvance *) destruct (iadd_moves _ n V ltac:(lia)) as (r & E1 & V1 & A1).
    done; [cbn [step]; unfold iadd_assign; rewrite E1; reflexivity|]. apply des_it; [assumption..|lia].
  - (* IRetreat *) destruct (isub_moves _ n V ltac:(lia)) as (r & E1 & V1 & A1).
    done; [cbn [step]; unfold isub_assign; rewrite E1; reflexivity|]. apply des_it; [assumption..|lia].
  - (* IIncr *) destruct (iinc_spec w _ ltac:(lia) V) as (V1 & A1).
    done; [reflexivity|]. apply des_it; [assumption..|lia].
  - (* IDecr *) destruct (idec_spec w _ ltac:(lia) V) as (V1 & A1).
    done; [reflexivity|]. apply des_it; [assumption..|lia].
  - (* IPostIncr *) destruct (iinc_spec w _ ltac:(lia) V) as (V1 & A1).
    done; [reflexivity|]. apply des_it; [apply des_it; [assumption..|cbn [snd ipostinc]; lia]|assumption..].
  - (* IPostDecr *) destruct (idec_spec w _ ltac:(lia) V) as (V1 & A1).
    done; [reflexivity|]. apply des_it; [apply des_it; [assumption..|cbn [snd ipostdec]; lia]|assumption..].
  - (* IDist *) match goal with C : Nat.eqb _ _ = true |- _ => apply Nat.eqb_eq in C; subst n0 end.
    destruct (D1 _ _ _ E) as (Aa & Va & Ba), (D1 _ _ _ E0) as (Ab & Vb & Bb).
    pose proof (Mx _ _ Aa). pose proof (Mx _ _ Ab). done; [cbn [step]|exact D]. rewrite (idiff_eq w) by (assumption || lia).
    rewrite Ba, Bb. replace (lo n + z - (lo n + z0)) with (z - z0) by lia. reflexivity.
  - (* ICmp *) match goal with C : Nat.eqb _ _ = true |- _ => apply Nat.eqb_eq in C; subst n0 end.
    destruct (D1 _ _ _ E) as (Aa & Va & Ba), (D1 _ _ _ E0) as (Ab & Vb & Bb).
    pose proof (Mx _ _ Aa). pose proof (Mx _ _ Ab). done; [cbn [step]|exact D].
    replace (scmp c z z0) with (icmp c (eit e x) (eit e y0)); [reflexivity|].
    pose proof (ieq_addr w _ _ ltac:(lia) Va Vb) as X1. pose proof (cmp_addr w _ _ ltac:(lia) Va Vb) as (X2 & X3 & X4 & X5 & X6).
    destruct c; cbn [icmp scmp]; rewrite ?X1, ?X2, ?X3, ?X4, ?X5, ?X6, Ba, Bb; lia.
  - (* RDeref *) destruct (ref_of _ V) as (E1 & R1). rewrite B in R1.
    done; [cbn [step]; rewrite E1; reflexivity|]. apply des_re; assumption.
  - (* RIndex *) destruct (index_of _ n V ltac:(lia)) as (r1 & E1 & R1). rewrite B, <- Z.add_assoc in R1.
    done; [cbn [step]; rewrite E1; reflexivity|]. apply des_re; assumption.
  - (* RGet *) destruct (D2 _ _ _ E) as (A & R). done; [cbn [step]; unfold bind|exact D].
    rewrite (ref_get_ok w m _ _ Vw W R (Mp _ _ _ E)). rewrite (proj2 (proj2 (proj1 L n)) z) by (apply element_range, A).
    reflexivity.
  - (* RPut *) eapply modified with (f := fun _ => b); try eassumption; [reflexivity|]. intros R M.
    eapply (ref_assign_ok p w m _ _ _ _ b 0 0 Vw W R M R M). lia.
  - (* RCopy *) destruct (D2 _ _ _ E) as (A & R). pose proof (Mp _ _ _ E) as M.
    rewrite <- (proj2 (proj2 (proj1 L n)) z) by (apply element_range, A).
    eapply modified with (f := fun _ => bit w m (lo n + z)); try eassumption; [reflexivity|]. intros R' M'.
    eapply (ref_assign_ok p w m _ _ _ _ true 0 0 Vw W R' M' R M). lia.
  - (* RSet *) eapply modified with (f := fun _ => b); try eassumption; [reflexivity|]. intros R M.
    eapply (ref_set_ok w m _ _ b Vw W R M).
  - (* RSet1 *) eapply modified with (f := fun _ => true); try eassumption; [reflexivity|]. intros R M.
    eapply (ref_set_ok w m _ _ true Vw W R M).
  - (* RReset *) eapply modified with (f := fun _ => false); try eassumption; [reflexivity|]. intros R M.
    eapply (ref_set_ok w m _ _ true Vw W R M).
  - (* RFlip *) eapply modified with (f := negb); try eassumption; [reflexivity|]. intros R M.
    eapply (ref_set_ok w m _ _ true Vw W R M).
  - (* RAnd *) eapply modified with (f := fun x => x && b); try eassumption; [reflexivity|]. intros R M.
    eapply (ref_compound_ok w m _ _ b Vw W R M).
  - (* ROr *) eapply modified with (f := fun x => x || b); try eassumption; [reflexivity|]. intros R M.
    eapply (ref_compound_ok w m _ _ b Vw W R M).
  - (* RXor *) eapply modified with (f := fun x => xorb x b); try eassumption; [reflexivity|]. intros R M.
    eapply (ref_compound_ok w m _ _ b Vw W R M).
  - (* RSwap *) destruct (D2 _ _ _ E) as (A & R), (D2 _ _ _ E0) as (A0 & R0).
    destruct (ref_swap_ok w m _ _ _ _ Vw W R R0 (Mp _ _ _ E) (Mp _ _ _ E0)) as (m' & E1 & W1 & S1 & B1).
    destruct (lay_swap m m' arr n z n0 z0 L) as (L1 & O1); try assumption; try (apply element_range; assumption).
    assert (Z1 : forall k, size (write (write arr (n, z) (elem arr (n0, z0))) (n0, z0) (elem arr (n, z))) k = size arr k).
    { intros k. rewrite size_write; [apply size_write, A|].
      apply element_range. rewrite size_write by exact A. apply element_range, A0. }
    exists e, m'. split; [cbn [step]; unfold bind; rewrite E1; reflexivity|]. split.
    + split; [exact W1|]. split; [exact S1|]. auto.
    + eapply des_sizes; [exact Z1|exact D].
  - (* RSwapVal *) destruct (D2 _ _ _ E) as (A & R).
    destruct (ref_swap_val_ok w m _ _ b Vw W R (Mp _ _ _ E)) as (m' & E1 & U).
    pose proof U as (W' & S' & _). pose proof (proj1 (element_range _ _ _) A) as Hr.
    destruct (lay_write m m' arr n z _ L Hr U) as (L' & O').
    exists e, m'. rewrite <- (proj2 (proj2 (proj1 L n)) z) by exact Hr.
    split; [cbn [step]; unfold bind; rewrite E1; reflexivity|]. split.
    + split; [exact W'|]. split; [exact S'|]. split; [apply size_write, A|]. auto.
    + eapply des_sizes; [apply size_write, A|exact D].
  - (* PAddr *) destruct (D2 _ _ _ E) as (A & R). destruct (ptr_deref_ok p w _ _ Vw R) as (x & E1 & P1 & _).
    done; [cbn [step]; rewrite E1; reflexivity|]. apply des_pt; auto.
  - (* PDeref *) destruct (deref_of _ _ P) as (x & E1 & R1).
    done; [cbn [step]; rewrite E1; reflexivity|]. apply des_re; auto.
  - (* PIndex *) destruct (pindex_ok p w _ _ n Vw P ltac:(lia)) as (x & E1 & R1). rewrite <- Z.add_assoc in R1.
    done; [cbn [step]; rewrite E1; reflexivity|]. apply des_re; auto.
  - (* PCopy *) done; [reflexivity|]. apply des_pt; assumption.
  - (* PPlus *) destruct (padd_ok p w _ _ n Vw P ltac:(lia)) as (x & E1 & R1). rewrite <- Z.add_assoc in R1.
    done; [cbn [step]; rewrite E1; reflexivity|]. apply des_pt; auto.
  - (* PMinus *) destruct (psub_ok p w _ _ n Vw P ltac:(lia)) as (x & E1 & R1). unfold Z.sub in R1. rewrite <- Z.add_assoc in R1.
    done; [cbn [step]; rewrite E1; reflexivity|]. apply des_pt; auto.
  - (* PIncr *) destruct (pinc_ok w _ _ Vw P) as (x & E1 & R1). rewrite <- Z.add_assoc in R1.
    done; [cbn [step]; rewrite E1; reflexivity|]. apply des_pt; auto.
  - (* PDecr *) destruct (pdec_ok w _ _ Vw P) as (x & E1 & R1). unfold Z.sub in R1. rewrite <- Z.add_assoc in R1.
    done; [cbn [step]; rewrite E1; reflexivity|]. apply des_pt; auto.
  - (* PDist *) match goal with C : Nat.eqb _ _ = true |- _ => apply Nat.eqb_eq in C; subst n0 end.
    destruct (D3 _ _ _ E) as (Aa & Pa), (D3 _ _ _ E0) as (Ab & Pb).
    pose proof (Mx _ _ Aa). pose proof (Mx _ _ Ab). done; [cbn [step]|exact D]. rewrite (pdiff_ok w _ _ _ _ Vw Pa Pb) by lia.
    replace (lo n + z - (lo n + z0)) with (z - z0) by lia. reflexivity.
  - (* PCmp *) match goal with C : Nat.eqb _ _ = true |- _ => apply Nat.eqb_eq in C; subst n0 end.
    destruct (D3 _ _ _ E) as (Aa & Pa), (D3 _ _ _ E0) as (Ab & Pb).
    pose proof (Mx _ _ Aa). pose proof (Mx _ _ Ab). done; [cbn [step]|exact D].
    destruct (pcmp_ok w _ _ _ _ Vw Pa Pb) as (X1 & X2 & X3 & X4 & X5 & X6).
    destruct c; cbn [GenericModel.pcmp scmp]; rewrite ?X1, ?X2, ?X3, ?X4, ?X5, ?X6;
      unfold bind, lift, ret; do 4 f_equal; lia.
Qed.
End Layout.

(** ** Whole programs *)
Lemma sexec_ok : forall w lo p, valid_w w -> forall A n (c : client A) m arr e s, wf_mem w m ->
  laid_out w m lo arr -> designates w lo arr e s ->
  match sexec n c s arr with
  | Returned a arr' => exists m', exec p w n c e m = Ok (a, m') /\ follows w lo m m' arr arr'
  | Running => exec p w n c e m = Fuel
  | NotAllowed => True
  end.
Proof.
  intros w lo p Vw A n. induction n as [|n IH]; intros c m arr e s W L D; [reflexivity|].
  destruct c as [a|o k]; cbn [sexec exec].
  - exists m. split; [reflexivity|]. apply follows_refl; assumption.
  - destruct (sstep o s arr) as [[[y s'] arr']|] eqn:E; [|exact I].
    destruct (sstep_ok w lo Vw p o e s m arr y s' arr' W L D E) as (e' & m' & E1 & F & D').
    destruct F as (W' & S' & Z' & L' & O'). specialize (IH (k y) m' arr' e' s' W' L' D').
    unfold bind at 1. unfold bind at 1. rewrite E1. cbn [fst snd].
    destruct (sexec n (k y) s' arr') as [a arr2| |]; [|exact IH|exact I].
    destruct IH as (m2 & E2 & W2 & S2 & Z2 & L2 & O2). exists m2. split; [exact E2|].
    split; [exact W2|]. split; [eapply same_dom_trans; eassumption|].
    split; [intros; rewrite Z2; apply Z'|]. split; [exact L2|].
    intros x Hx. rewrite O2; [apply O', Hx|]. intros l i Hi. rewrite Z' in Hi. apply Hx, Hi.
Qed.

Lemma programs_ok : forall A p w m lo arr n (c : client A) e s,
  valid_w w -> wf_mem w m -> laid_out w m lo arr -> designates w lo arr e s ->
  match sexec n c s arr with
  | Returned a arr' => exists m', exec p w n c e m = Ok (a, m') /\ wf_mem w m' /\ same_dom m m' /\
      laid_out w m' lo arr' /\ forall i, elsewhere lo arr i -> bit w m' i = bit w m i
  | Running => exec p w n c e m = Fuel
  | NotAllowed => True
  end.
Proof.
  intros A p w m lo arr n c e s Vw W L D. pose proof (sexec_ok w lo p Vw A n c m arr e s W L D) as H.
  destruct (sexec n c s arr) as [a arr'| |]; [|exact H|exact I].
  destruct H as (m' & E & W' & S' & _ & L' & O'). exists m'. auto.
Qed.

Lemma widths_ok : forall A p1 p2 w1 w2 m1 m2 lo1 lo2 arr n (c : client A) e1 e2 s,
  valid_w w1 -> valid_w w2 -> wf_mem w1 m1 -> wf_mem w2 m2 ->
  laid_out w1 m1 lo1 arr -> laid_out w2 m2 lo2 arr ->
  designates w1 lo1 arr e1 s -> designates w2 lo2 arr e2 s ->
  sexec n c s arr <> NotAllowed ->
  (exec p1 w1 n c e1 m1 = Fuel /\ exec p2 w2 n c e2 m2 = Fuel) \/
  exists a m1' m2', exec p1 w1 n c e1 m1 = Ok (a, m1') /\ exec p2 w2 n c e2 m2 = Ok (a, m2') /\
    forall k i, 0 <= i < size arr k -> bit w1 m1' (lo1 k + i) = bit w2 m2' (lo2 k + i).
Proof.
  intros A p1 p2 w1 w2 m1 m2 lo1 lo2 arr n c e1 e2 s V1 V2 W1 W2 L1 L2 D1 D2 N.
  pose proof (sexec_ok w1 lo1 p1 V1 A n c m1 arr e1 s W1 L1 D1) as H1.
  pose proof (sexec_ok w2 lo2 p2 V2 A n c m2 arr e2 s W2 L2 D2) as H2.
  destruct (sexec n c s arr) as [a arr'| |]; [right|left; auto|contradiction].
  destruct H1 as (m1' & E1 & _ & _ & Z1 & (X1 & _) & _), H2 as (m2' & E2 & _ & _ & Z2 & (X2 & _) & _).
  exists a, m1', m2'. split; [exact E1|]. split; [exact E2|]. intros k i Hi.
  destruct (X1 k) as (_ & _ & Y1), (X2 k) as (_ & _ & Y2).
  rewrite Y1, Y2 by (rewrite ?Z1, ?Z2; exact Hi). reflexivity.
Qed.
