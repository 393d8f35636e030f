(** find stops reading at the word of its result. *)
From Coq Require Import ZArith Bool List Lia.
From Verif Require Import Base WordOps IterModel PopcntModel Spec ProofBase ProofIter
  AlgModel ProofCnt ThreadModel TraceModel SpecCost ProofTrace ProofCost.
Import ListNotations.
Open Scope Z_scope.

(** After [r] reads: what the thread returns and the number of reads then meet [P]. *)
Fixpoint used {A} (t : thread A) (r : Z) (P : A -> Z -> Prop) : Prop :=
  match t with
  | Done (Ok a) => P a r
  | Done _ => True
  | Read _ k => forall x, used (k x) (r + 1) P
  | Write _ _ k => used k r P
  end.

Lemma used_sound : forall A (t : thread A) r P m a m', used t r P ->
  alone t m = Ok (a, m') -> P a (r + reads t m).
Proof.
  intros A t. induction t as [x|b k IH|b v k IH]; intros r P m a m' H E;
    cbn [used reads alone] in *.
  - destruct x; try discriminate. injection E as -> ->. rewrite Z.add_0_r. exact H.
  - destruct (m b) as [x|]; [|discriminate].
    replace (r + (1 + reads (k x) m)) with (r + 1 + reads (k x) m) by lia.
    eapply IH; eauto.
  - destruct (m b) as [x|]; [|discriminate]. eapply IH; eauto.
Qed.

Lemma used_mono : forall A (t : thread A) r (P Q : A -> Z -> Prop), used t r P ->
  (forall a n, P a n -> Q a n) -> used t r Q.
Proof.
  intros A t. induction t as [x|b k IH|b v k IH]; intros r P Q H HPQ; cbn [used] in *.
  - destruct x; auto.
  - intros x. eapply IH; eauto.
  - eapply IH; eauto.
Qed.

Lemma used_bind : forall A B (t : thread A) (f : A -> thread B) r P Q, used t r P ->
  (forall a n, P a n -> used (f a) n Q) -> used (tbind t f) r Q.
Proof.
  intros A B t f. induction t as [x|b k IH|b v k IH]; intros r P Q H HF; cbn [used tbind] in *.
  - destruct x; cbn [used]; auto.
  - intros x. eapply IH; eauto.
  - eapply IH; eauto.
Qed.

Lemma u_lift : forall A B (x : res A) (f : A -> thread B) r Q,
  (forall a, x = Ok a -> used (f a) r Q) -> used (tbind (lift x) f) r Q.
Proof. intros A B x f r Q H. destruct x; cbn; auto. Qed.

Lemma u_load : forall B a (f : Z -> thread B) r Q,
  (forall x, used (f x) (r + 1) Q) -> used (tbind (load a) f) r Q.
Proof. intros. exact H. Qed.

Lemma u_end : forall A (x : res A) r (P : A -> Z -> Prop),
  (forall a, x = Ok a -> P a r) -> used (lift x) r P.
Proof. intros A x r P H. destruct x; cbn; auto. Qed.

Lemma u_words_find : forall n it skip r,
  used (words_find n it skip) r (fun a r' =>
    (it <= a < it + Z.of_nat n /\ r' = r + (a - it) + 1) \/
    (a = it + Z.of_nat n /\ r' = r + (a - it))).
Proof.
  induction n as [|n IH]; intros it skip r; cbn [words_find].
  - cbn [used ret]. right. lia.
  - apply u_load. intros x. destruct (negb (x =? skip)).
    + cbn [used ret]. left. lia.
    + eapply used_mono; [apply IH|]. intros a r' H. cbn beta in H. lia.
Qed.

Lemma tz_range : forall w b x, valid_w w -> 0 <= tz_bv w b x <= w.
Proof.
  intros w b x Vw. pose proof (valid_pos w Vw). unfold tz_bv.
  destruct b; apply tzcnt_spec; try assumption; apply wrap_range; lia.
Qed.

(** The words from the first to that of an iterator. *)
Lemma words_to : forall w a r, 0 < w -> valid_it w a -> valid_it w r -> addr w a <= addr w r ->
  words_of w (addr w a) (addr w r + 1) = ib r - ib a + 1.
Proof.
  intros w a r Hw Ha Hr H. unfold words_of. destruct (Z.ltb_spec (addr w a) (addr w r + 1)); [|lia].
  replace (addr w r + 1 - 1) with (addr w r) by lia.
  rewrite !addr_base by assumption. lia.
Qed.

Lemma u_find : forall p w first last b, valid_w w -> valid_it w first -> valid_it w last ->
  0 <= addr w last - addr w first <= max_bits ->
  used (find p w first last b) 0 (fun r n =>
    n <= words_of w (addr w first) (addr w r + 1) + 1).
Proof.
  intros p w first last b Vw V1 V2 H. pose proof (valid_pos w Vw) as W.
  assert (LE : forall r, valid_it w r -> addr w first <= addr w r -> 
    words_of w (addr w first) (addr w r + 1) = ib r - ib first + 1 /\ ib first <= ib r).
  { intros r Vr Hr. split; [apply words_to; assumption || lia|].
    unfold addr, valid_it in *. nia. }
  assert (V1' := V1). unfold valid_it in V1'.
  unfold find, max_bits in *. cbv zeta.
  apply used_bind with (P := fun s n => match s with
    | inl r => n <= words_of w (addr w first) (addr w r + 1) + 1
    | Datatypes.inr f => n = ib f - ib first /\ ib first <= ib f /\
        (ib f <= ib last \/ (ip last <> 0 /\ ib f = ib last + 1)) /\
        (ip first = 0 \/ ib f = ib first + 1) end).
  - destruct (Z.eqb_spec (ip first) 0) as [C1|C1]; cbn [negb].
    + cbn [used ret]. unfold addr, valid_it in *. nia.
    + apply u_load. intros x. apply u_lift. intros s Hs.
      pose proof (tz_range w b (wrap w s) Vw) as TR.
      destruct (Z.eqb_spec (ib first + b2z (ip last =? 0)) (ib last)) as [C2|C2].
      * rewrite distance_eq by (assumption || lia). apply u_lift. intros d Hd. injection Hd as <-.
        rewrite (wrap_small 64) by lia. apply u_lift. intros r Hr. cbn [used ret].
        destruct (iadd_exact w first (Z.min (tz_bv w b (wrap w s)) (addr w last - addr w first))
          Vw V1) as [r' [E [Vr A]]]; [lia|].
        rewrite E in Hr. injection Hr as <-. destruct (LE r' Vr) as [L1 L2]; lia.
      * destruct (tz_bv w b (wrap w s) + ip first <? w).
        -- apply u_lift. intros r Hr. cbn [used ret].
           destruct (iadd_exact w first (tz_bv w b (wrap w s)) Vw V1) as [r' [E [Vr A]]]; [lia|].
           rewrite E in Hr. injection Hr as <-. destruct (LE r' Vr) as [L1 L2]; lia.
        -- rewrite usub_small by lia. rewrite iadd_eq by (assumption || lia).
           apply u_lift. intros f Hf. injection Hf as <-. cbn [used ret ib].
           replace (ip first + (w - ip first)) with (1 * w) by lia. rewrite Z.div_mul by lia.
           assert (ib first <= ib last) by (unfold addr, valid_it in *; nia).
           unfold b2z in C2. destruct (Z.eqb_spec (ip last) 0); [|lia].
           assert (ib first < ib last \/ ib first = ib last) as [L|L] by lia; [lia|].
           unfold addr in H. rewrite L in H. lia.
  - intros [r|f] n Hs; [exact Hs|]. destruct Hs as [-> [F1 [F2 F3]]].
    assert (BL : ib first <= ib last) by (unfold addr, valid_it in *; nia).
    eapply used_bind; [apply u_words_find|]. intros a n Ha. cbn beta in Ha.
    assert (HA : ib f <= a) by lia.
    assert (AF : addr w first <= a * w).
    { unfold addr, valid_it in *. destruct F3 as [F3|F3]; nia. }
    destruct (Z.eqb_spec a (ib last)) as [C2|C2]; cbn [negb].
    + destruct (Z.eqb_spec (ip last) 0) as [C3|C3]; cbn [negb].
      * cbn [used ret]. destruct (LE last V2); lia.
      * apply u_load. intros x. pose proof (tz_range w b x Vw) as TR. apply u_end. intros r Hr.
        unfold mk_iter in Hr. destruct (Z.ltb_spec (Z.min (tz_bv w b x) (ip last)) w); [|discriminate].
        injection Hr as <-.
        destruct (LE (It a (Z.min (tz_bv w b x) (ip last)))) as [L1 L2];
          [unfold valid_it in *; cbn [ip]; lia|unfold addr, valid_it in *; cbn [ib ip]; lia|].
        cbn [ib] in L1, L2. lia.
    + apply u_load. intros x. pose proof (tz_range w b x Vw) as TR. apply u_end. intros r Hr.
      unfold mk_iter in Hr. destruct (Z.ltb_spec (tz_bv w b x) w); [|discriminate].
      injection Hr as <-.
      destruct (LE (It a (tz_bv w b x))) as [L1 L2];
        [unfold valid_it in *; cbn [ip]; lia|unfold addr, valid_it in *; cbn [ib ip]; lia|].
      cbn [ib] in L1, L2. lia.
Qed.

Lemma find_stops : forall p w m first last b r m', valid_w w -> valid_it w first ->
  valid_it w last -> 0 <= addr w last - addr w first <= max_bits ->
  AlgModel.find p w first last b m = Ok (r, m') ->
  reads (find p w first last b) m <= words_of w (addr w first) (addr w r + 1) + 1.
Proof.
  intros p w m first last b r m' Vw V1 V2 H E. rewrite <- sm_find in E.
  pose proof (used_sound _ _ _ _ _ _ _ (u_find p w first last b Vw V1 V2 H) E) as U.
  exact U.
Qed.
