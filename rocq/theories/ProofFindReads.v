(** The words that find reads, in order (C67). *)
From Coq Require Import ZArith Bool List Lia.
From Verif Require Import Base WordOps IterModel PopcntModel Spec ProofBase ProofIter
  AlgModel ShiftModel ReverseModel ThreadModel TraceModel SpecCost SpecReads ProofTrace
  ProofCost ProofCost2 ProofCost5 ProofWrites.
Import ListNotations.
Open Scope Z_scope.

(** The thread reads a, a + 1, ... e - 1 and returns a value that meets [Q e]. *)
Fixpoint sees {A} (t : thread A) (a : Z) (Q : Z -> A -> Prop) : Prop :=
  match t with
  | Done (Ok x) => Q a x
  | Done _ => True
  | Read c k => c = a /\ forall x, sees (k x) (a + 1) Q
  | Write _ _ _ => False
  end.

(** The same, but the last word may be read again. *)
Fixpoint sees2 {A} (t : thread A) (a : Z) (Q : Z -> A -> Prop) : Prop :=
  match t with
  | Done (Ok x) => Q a x
  | Done _ => True
  | Read c k => (c = a /\ forall x, sees2 (k x) (a + 1) Q) \/
      (c = a - 1 /\ forall x, match k x with Done (Ok y) => Q a y | Done _ => True | _ => False end)
  | Write _ _ _ => False
  end.

Lemma sees_bind : forall A B (t : thread A) (f : A -> thread B) a P Q, sees t a P ->
  (forall e x, P e x -> sees (f x) e Q) -> sees (tbind t f) a Q.
Proof.
  intros A B t f. induction t as [r|c k IH|c v k IH]; intros a P Q H HF; cbn [sees tbind] in *.
  - destruct r; cbn [sees]; auto.
  - destruct H as [-> H]. split; [reflexivity|]. intros x. eapply IH; eauto.
  - contradiction.
Qed.

Lemma sees2_bind : forall A B (t : thread A) (f : A -> thread B) a P Q, sees t a P ->
  (forall e x, P e x -> sees2 (f x) e Q) -> sees2 (tbind t f) a Q.
Proof.
  intros A B t f. induction t as [r|c k IH|c v k IH]; intros a P Q H HF; cbn [sees sees2 tbind] in *.
  - destruct r; cbn [sees2]; auto.
  - destruct H as [-> H]. left. split; [reflexivity|]. intros x. eapply IH; eauto.
  - contradiction.
Qed.

Lemma sees_load : forall B c (f : Z -> thread B) a Q, c = a -> (forall x, sees (f x) (a + 1) Q) ->
  sees (tbind (load c) f) a Q.
Proof. intros. cbn. auto. Qed.

Lemma sees_lift : forall A B (r : res A) (f : A -> thread B) a Q,
  (forall x, r = Ok x -> sees (f x) a Q) -> sees (tbind (lift r) f) a Q.
Proof. intros A B r f a Q H. destruct r; [apply H; reflexivity|exact I..]. Qed.

Lemma sees2_read : forall A (t : thread A) a Q, sees2 t a Q -> forall m r m',
  alone t m = Ok (r, m') ->
  exists e l, read_at t m = from_to a e ++ l /\ a <= e /\ (l = [] \/ l = [e - 1]) /\ Q e r.
Proof.
  intros A. induction t as [x|c k IH|c v k IH]; intros a Q H m r m' E; cbn [sees2 alone read_at] in *.
  - destruct x; try discriminate E. cbn in E. injection E as -> _. exists a, [].
    rewrite from_to_empty. split; [reflexivity|]. split; [lia|auto].
  - destruct (m c) as [x|] eqn:Em; [|discriminate]. destruct H as [[-> H]|[-> H]].
    + destruct (IH x (a + 1) Q (H x) m r m' E) as (e & l & R & L & T & HQ). exists e, l.
      rewrite R, (from_to_cons a e) by lia. split; [reflexivity|]. split; [lia|auto].
    + exists a, [a - 1]. rewrite from_to_empty. specialize (H x).
      destruct (k x) as [[y| | | |]|?|?]; try contradiction; try discriminate E.
      cbn in E. injection E as -> _. cbn [read_at app]. split; [reflexivity|]. split; [lia|auto].
  - contradiction.
Qed.

Lemma sees_words_find : forall n it skip,
  sees (words_find n it skip) it (fun e a =>
    (it <= a < it + Z.of_nat n /\ e = a + 1) \/ (a = it + Z.of_nat n /\ e = a)).
Proof.
  induction n as [|n IH]; intros it skip; cbn [words_find].
  - cbn [sees ret]. right. lia.
  - apply sees_load; [reflexivity|]. intros x. destruct (negb (x =? skip)).
    + cbn [sees ret]. left. lia.
    + assert (M : forall A (t : thread A) a (P Q : Z -> A -> Prop), sees t a P ->
        (forall e x, P e x -> Q e x) -> sees t a Q).
      { intros A t. induction t as [r|c k IHt|c v k IHt]; intros a P Q H HPQ; cbn [sees] in *.
        - destruct r; auto.
        - destruct H as [E H]. split; [exact E|]. intros y. eapply IHt; eauto.
        - contradiction. }
      eapply M; [apply IH|]. intros e y H. cbn beta in H. lia.
Qed.

Lemma sees_find : forall p w first last b, valid_w w -> valid_it w first -> valid_it w last ->
  0 < addr w last - addr w first <= max_bits ->
  sees2 (find p w first last b) (ib first) (fun e r =>
    ib r <= e <= ib r + 1 /\ e <= (addr w last - 1) / w + 1).
Proof.
  intros p w first last b Vw V1 V2 H. pose proof (valid_pos w Vw) as W.
  rewrite end_word by (assumption || lia).
  assert (V1' := V1). assert (V2' := V2). unfold valid_it in V1', V2'.
  assert (BL : ib first <= ib last) by (unfold addr in *; nia).
  assert (BI : ip last = 0 -> ib first < ib last) by (unfold addr in *; nia).
  unfold find, max_bits in *. cbv zeta.
  apply sees2_bind with (P := fun e s => match s with
    | inl r => ib r <= e <= ib r + 1 /\ e <= ib last + (if ip last =? 0 then 0 else 1)
    | Datatypes.inr f => e = ib f /\ ib f <= ib last end).
  - destruct (Z.eqb_spec (ip first) 0) as [C1|C1]; cbn [negb].
    + cbn [sees ret]. lia.
    + apply sees_load; [reflexivity|]. intros x. apply sees_lift. intros s Hs.
      pose proof (tz_range w b (wrap w s) Vw) as TR.
      destruct (Z.eqb_spec (ib first + b2z (ip last =? 0)) (ib last)) as [C2|C2].
      * rewrite distance_eq by (assumption || lia). apply sees_lift. intros d Hd. injection Hd as <-.
        rewrite (wrap_small 64) by lia. apply sees_lift. intros r Hr. cbn [sees ret].
        destruct (iadd_exact w first (Z.min (tz_bv w b (wrap w s)) (addr w last - addr w first))
          Vw V1) as [r' [E [Vr A]]]; [lia|].
        rewrite E in Hr. injection Hr as <-. unfold b2z in C2. unfold valid_it in Vr.
        assert (addr w r' <= addr w last) by lia. unfold addr in *.
        destruct (Z.eqb_spec (ip last) 0) as [C3|C3]; split; nia.
      * destruct (Z.ltb_spec (tz_bv w b (wrap w s) + ip first) w) as [C3|C3].
        -- apply sees_lift. intros r Hr. cbn [sees ret].
           destruct (iadd_exact w first (tz_bv w b (wrap w s)) Vw V1) as [r' [E [Vr A]]]; [lia|].
           rewrite E in Hr. injection Hr as <-. unfold valid_it in Vr. unfold addr in *.
           assert (ib r' = ib first) by nia.
           unfold b2z in C2. destruct (Z.eqb_spec (ip last) 0); lia.
        -- rewrite usub_small by lia. rewrite iadd_eq by (assumption || lia).
           apply sees_lift. intros f Hf. injection Hf as <-. cbn [sees ret ib].
           replace (ip first + (w - ip first)) with (1 * w) by lia. rewrite Z.div_mul by lia.
           unfold b2z in C2. destruct (Z.eqb_spec (ip last) 0); lia.
  - intros e [r|f] Hs; [exact Hs|]. destruct Hs as [-> F].
    eapply sees2_bind; [apply sees_words_find|]. intros e a Ha. cbn beta in Ha.
    destruct (Z.eqb_spec a (ib last)) as [C2|C2]; cbn [negb].
    + destruct (Z.eqb_spec (ip last) 0) as [C3|C3]; cbn [negb].
      * cbn [sees2 ret]. lia.
      * cbn [tbind load sees2]. left. split; [lia|]. intros x. unfold mk_iter.
        destruct (Z.min (tz_bv w b x) (ip last) <? w); cbn [lift sees2 ib]; lia || exact I.
    + cbn [tbind load sees2]. right. split; [lia|]. intros x. unfold mk_iter.
      destruct (tz_bv w b x <? w); cbn [lift ib]; [|exact I]. destruct (ip last =? 0); lia.
Qed.

Lemma find_reads : forall p w first last b m r m', valid_w w -> valid_it w first ->
  valid_it w last -> 0 < addr w last - addr w first <= max_bits ->
  AlgModel.find p w first last b m = Ok (r, m') ->
  exists e l, read_at (find p w first last b) m = from_to (ib first) e ++ l /\
    (l = [] \/ l = [e - 1]) /\ ib r <= e <= ib r + 1 /\ e <= (addr w last - 1) / w + 1.
Proof.
  intros p w first last b m r m' Vw V1 V2 H E. rewrite <- sm_find in E.
  destruct (sees2_read _ _ _ _ (sees_find p w first last b Vw V1 V2 H) m r m' E)
    as (e & l & R & L & T & Q1 & Q2).
  exists e, l. auto.
Qed.
