(** Calls in several threads on ranges that share no word. *)
From Coq Require Import ZArith Bool List Lia.
From Verif Require Import Base WordOps IterModel RefModel PopcntModel AlgModel ShiftModel
  TransformModel SwapModel ReverseModel RotateModel ThreadModel Spec SpecClient SpecRef SpecStd SpecThread
  ProofBase ProofIter ProofAlg1 ProofRange ProofTransform ProofSwap ProofReverse ProofRotate ProofShift
  ProofRef ProofReference ProofVec2 ProofStd ProofFrame ProofSteps Demo.
Import ListNotations.
Open Scope Z_scope.
Ltac Zify.zify_post_hook ::= idtac.

(** ** A thread on its own *)

Lemma framed_thread : forall A (t : thread A), framed (alone t).
Proof.
  intros A t. induction t as [r|a k IH|a v k IH]; intros m big Hb; cbn [alone].
  - apply framed_lift, Hb.
  - destruct (m a) as [x|] eqn:E; [|exact I]. rewrite (Hb _ _ E). apply IH, Hb.
  - destruct (m a) as [x|] eqn:E; [|exact I]. rewrite (Hb _ _ E).
    assert (B : below (mset m a v) (mset big a v)).
    { intros b y. unfold mset. destruct (b =? a); [auto|apply Hb]. }
    specialize (IH _ _ B). destruct (alone k (mset m a v)) as [[r m1]|u| | |]; try exact IH.
    destruct IH as (b1 & E1 & B1 & D1 & O1). exists b1. split; [exact E1|]. split; [exact B1|].
    split.
    + intros b. rewrite <- (D1 b). unfold mset. destruct (Z.eqb_spec b a) as [->|]; [|tauto].
      rewrite E. split; discriminate.
    + intros b Nb. assert (b <> a) by congruence. rewrite O1.
      * unfold mset. destruct (Z.eqb_spec b a); [contradiction|reflexivity].
      * unfold mset. destruct (Z.eqb_spec b a); [contradiction|exact Nb].
Qed.

Lemma alone_ext : forall A (t : thread A) m m', (forall a, m a = m' a) ->
  match alone t m with
  | Ok (r, m1) => exists m2, alone t m' = Ok (r, m2) /\ forall a, m1 a = m2 a
  | UB k => alone t m' = UB k
  | Assert => alone t m' = Assert
  | Throw => alone t m' = Throw
  | Fuel => alone t m' = Fuel
  end.
Proof.
  intros A t. induction t as [r|a k IH|a v k IH]; intros m m' E; cbn [alone].
  - destruct r; cbn; try reflexivity. exists m'. auto.
  - rewrite <- (E a). destruct (m a); [apply IH, E|reflexivity].
  - rewrite <- (E a). destruct (m a); [|reflexivity]. apply IH. intros b. unfold mset.
    destruct (b =? a); [reflexivity|apply E].
Qed.

Lemma reads_only_memory : forall A (t : thread A) m r m1, reads_only t ->
  alone t m = Ok (r, m1) -> m1 = m.
Proof.
  intros A t m r m1 H. revert m r m1. induction H as [x|a k H IH]; intros m r m1 E.
  - destruct x; cbn in E; congruence.
  - cbn [alone] in E. destruct (m a) as [x|]; [|discriminate]. eapply IH, E.
Qed.

(** [c] lives on the words [F] of [m]: whatever the other words are, it returns [r],
    leaves [f] in [F] and the other words as they are. *)
Definition lives {A} (F : Z -> bool) (c : M A) (m : mem) (r : A) (f : mem) : Prop :=
  forall m', (forall a, F a = true -> m' a = m a) -> exists m1, c m' = Ok (r, m1) /\
    (forall a, F a = true -> m1 a = f a) /\ (forall a, F a = false -> m1 a = m' a).

(** The memory without the words outside [F]. *)
Definition cut (F : Z -> bool) (m : mem) : mem := fun a => if F a then m a else None.

Lemma lives_cut : forall A F (c : M A) m r f, framed c -> c (cut F m) = Ok (r, f) -> lives F c m r f.
Proof.
  intros A F c m r f Fr E m' Hm.
  assert (B : below (cut F m) m').
  { intros a x. unfold cut. destruct (F a) eqn:Fa; [|discriminate]. rewrite Hm by exact Fa. auto. }
  specialize (Fr _ _ B). rewrite E in Fr. destruct Fr as (b1 & E1 & B1 & D1 & O1).
  exists b1. split; [exact E1|]. split.
  - intros a Fa. destruct (f a) as [y|] eqn:Ef; [apply B1, Ef|].
    apply D1 in Ef. rewrite O1 by exact Ef. rewrite Hm by exact Fa. unfold cut in Ef.
    rewrite Fa in Ef. exact Ef.
  - intros a Fa. apply O1. unfold cut. rewrite Fa. reflexivity.
Qed.

Lemma lives_same : forall A F (c : M A) m n r f, lives F c m r f ->
  (forall a, F a = true -> n a = m a) -> lives F c n r f.
Proof. intros A F c m n r f H E m' Hm. apply H. intros a Fa. rewrite Hm, E by exact Fa. reflexivity. Qed.

Lemma lives_done : forall A F (x : res A) m r f, lives F (alone (Done x)) m r f ->
  x = Ok r /\ forall a, F a = true -> m a = f a.
Proof.
  intros A F x m r f H. destruct (H m (fun a _ => eq_refl)) as (m1 & E & I1 & _).
  destruct x; cbn in E; try discriminate. injection E as -> ->. auto.
Qed.

Lemma lives_read : forall A F a (k : Z -> thread A) m r f, lives F (alone (Read a k)) m r f ->
  F a = true /\ exists x, m a = Some x /\ lives F (alone (k x)) m r f.
Proof.
  intros A F a k m r f H.
  assert (C : F a = true /\ exists x, m a = Some x).
  { destruct (H (cut F m)) as (m1 & E & _). { intros b Fb. unfold cut. rewrite Fb. reflexivity. }
    cbn [alone] in E. unfold cut at 1 in E. destruct (F a); [|discriminate].
    destruct (m a) as [x|]; [|discriminate]. eauto. }
  destruct C as (Fa & x & Ex). split; [exact Fa|]. exists x. split; [exact Ex|].
  intros m' Hm. specialize (H m' Hm). cbn [alone] in H. rewrite Hm, Ex in H by exact Fa. exact H.
Qed.

Lemma lives_write : forall A F a v (k : thread A) m r f, lives F (alone (Write a v k)) m r f ->
  F a = true /\ m a <> None /\ lives F (alone k) (mset m a v) r f.
Proof.
  intros A F a v k m r f H.
  assert (C : F a = true /\ exists x, m a = Some x).
  { destruct (H (cut F m)) as (m1 & E & _). { intros b Fb. unfold cut. rewrite Fb. reflexivity. }
    cbn [alone] in E. unfold cut at 1 in E. destruct (F a); [|discriminate].
    destruct (m a) as [x|]; [|discriminate]. eauto. }
  destruct C as (Fa & x & Ex). split; [exact Fa|]. split; [congruence|].
  intros m' Hm. destruct (H (mset m' a x)) as (m1 & E & I1 & O1).
  { intros b Fb. unfold mset. destruct (Z.eqb_spec b a) as [->|N]; [congruence|].
    rewrite Hm by exact Fb. unfold mset. destruct (Z.eqb_spec b a); [contradiction|reflexivity]. }
  cbn [alone] in E. unfold mset at 1 in E. rewrite Z.eqb_refl in E.
  assert (X : forall b, mset (mset m' a x) a v b = m' b).
  { intros b. unfold mset. destruct (Z.eqb_spec b a) as [->|]; [|reflexivity].
    rewrite Hm by exact Fa. unfold mset. rewrite Z.eqb_refl. reflexivity. }
  pose proof (alone_ext _ k _ _ X) as Y. rewrite E in Y. destruct Y as (m2 & E2 & S2).
  exists m2. split; [exact E2|]. split.
  - intros b Fb. rewrite <- S2. apply I1, Fb.
  - intros b Fb. rewrite <- S2, O1 by exact Fb. unfold mset.
    destruct (Z.eqb_spec b a) as [->|]; [congruence|reflexivity].
Qed.

Lemma lives_reads_only : forall A F (t : thread A) m r f, reads_only t -> lives F (alone t) m r f ->
  forall a, F a = true -> f a = m a.
Proof.
  intros A F t m r f R H a Fa. destruct (H m (fun a _ => eq_refl)) as (m1 & E & I1 & _).
  rewrite <- I1 by exact Fa. rewrite (reads_only_memory _ _ _ _ _ R E). reflexivity.
Qed.

(** ** Several threads *)

Record job (A : Type) : Type := Job { jF : Z -> bool; jro : bool; jr : A; jf : mem }.
Arguments Job {A}. Arguments jF {A}. Arguments jro {A}. Arguments jr {A}. Arguments jf {A}.

Section Jobs.
Context {A : Type}.
Implicit Types (i j : job A) (js : list (job A)) (m : mem) (t : thread A).

Definition apart i j : Prop :=
  (jro i = true /\ jro j = true) \/ (forall a, jF i a = true -> jF j a = true -> False).

Lemma apart_sym : forall i j, apart i j -> apart j i.
Proof. intros i j [[H1 H2]|H]; [left; auto|right; eauto]. Qed.

Lemma apart_split : forall js1 j js2, ForallOrdPairs apart (js1 ++ j :: js2) ->
  Forall (apart j) js1 /\ Forall (apart j) js2.
Proof.
  induction js1 as [|i js1 IH]; intros j js2 H; cbn [app] in H; inversion H as [|x l H1 H2]; subst.
  - auto.
  - destruct (IH _ _ H2) as [I1 I2]. split; [|exact I2]. constructor; [|exact I1].
    rewrite Forall_app in H1. destruct H1 as [_ H1]. inversion H1; subst. apply apart_sym. assumption.
Qed.

Definition does m t j : Prop :=
  lives (jF j) (alone t) m (jr j) (jf j) /\ (jro j = true -> reads_only t).

Definition inv m0 js (s : pool A) : Prop :=
  Forall2 (does (fst s)) (snd s) js /\
  forall a, (forall j, In j js -> jF j a = false) -> fst s a = m0 a.

Lemma does_other : forall m a v ts js, (forall j, In j js -> jF j a = false) ->
  Forall2 (does m) ts js -> Forall2 (does (mset m a v)) ts js.
Proof.
  intros m a v ts js Hj H. induction H as [|t j ts js [L R] H IH]; constructor.
  - split; [|exact R]. eapply lives_same; [exact L|]. intros b Fb. unfold mset.
    destruct (Z.eqb_spec b a) as [->|]; [|reflexivity].
    rewrite (Hj j (or_introl eq_refl)) in Fb. discriminate.
  - apply IH. intros i Hi. apply Hj. right. exact Hi.
Qed.

Lemma inv_step : forall m0 js s s', ForallOrdPairs apart js -> inv m0 js s -> pstep s s' -> inv m0 js s'.
Proof.
  intros m0 js s s' Ap [H O] St. destruct St as [m ts1 a k ts2 x Ex|m ts1 a v k ts2 Na]; cbn [fst snd] in *.
  - apply Forall2_app_inv_l in H. destruct H as (js1 & js2 & H1 & H2 & ->).
    inversion H2 as [|t j l l' [L R] H3]; subst.
    destruct (lives_read _ _ _ _ _ _ _ L) as (Fa & y & Ey & Ly). rewrite Ex in Ey. injection Ey as <-.
    split; [|exact O]. apply Forall2_app; [exact H1|]. constructor; [|exact H3].
    split; [exact Ly|]. intros J. specialize (R J). inversion R; subst. auto.
  - apply Forall2_app_inv_l in H. destruct H as (js1 & js2 & H1 & H2 & ->).
    inversion H2 as [|t j l l' [L R] H3]; subst.
    destruct (lives_write _ _ _ _ _ _ _ _ L) as (Fa & _ & Ly).
    destruct (apart_split _ _ _ Ap) as [A1 A2].
    assert (W : jro j = false).
    { destruct (jro j) eqn:J; [|reflexivity]. specialize (R eq_refl). inversion R. }
    assert (D : forall i, apart j i -> jF i a = false).
    { intros i [[X _]|X]; [congruence|]. destruct (jF i a) eqn:Fi; [|reflexivity]. exfalso. eauto. }
    rewrite Forall_forall in A1, A2. split.
    + apply Forall2_app; [apply does_other; auto|]. constructor; [|apply does_other; auto].
      split; [exact Ly|congruence].
    + intros b Hb. cbn [fst]. unfold mset. destruct (Z.eqb_spec b a) as [->|]; [|apply O, Hb].
      rewrite (Hb j) in Fa; [discriminate|]. apply in_or_app. right. left. reflexivity.
Qed.

Lemma inv_steps : forall m0 js s s', ForallOrdPairs apart js -> psteps s s' -> inv m0 js s -> inv m0 js s'.
Proof. intros m0 js s s' Ap St. induction St; eauto using inv_step. Qed.

Lemma does_next : forall m t j a b, does m t j -> next_access t = Some (a, b) ->
  jF j a = true /\ m a <> None /\ (jro j = true -> b = false).
Proof.
  intros m t j a b [L R] N. destruct t as [r|c k|c v k]; cbn in N; [discriminate|..]; injection N as <- <-.
  - destruct (lives_read _ _ _ _ _ _ _ L) as (Fa & x & Ex & _). repeat split; congruence.
  - destruct (lives_write _ _ _ _ _ _ _ _ L) as (Fa & Na & _). repeat split; auto.
    intros J. specialize (R J). inversion R.
Qed.

Lemma inv_no_race : forall m0 js s, ForallOrdPairs apart js -> inv m0 js s -> ~ race s.
Proof.
  intros m0 js s Ap [H _] (ts1 & t & ts2 & u & ts3 & a & x & y & E & N1 & N2 & X). rewrite E in H.
  apply Forall2_app_inv_l in H. destruct H as (js1 & js' & H1 & H & ->).
  inversion H as [|t' j l l' Dj H']; subst. clear H.
  apply Forall2_app_inv_l in H'. destruct H' as (js2 & js3 & H2 & H & ->).
  inversion H as [|t' i l l' Di H3]; subst.
  destruct (does_next _ _ _ _ _ Dj N1) as (F1 & _ & R1), (does_next _ _ _ _ _ Di N2) as (F2 & _ & R2).
  destruct (apart_split _ _ _ Ap) as [_ A2]. rewrite Forall_forall in A2.
  destruct (A2 i ltac:(apply in_or_app; right; left; reflexivity)) as [[J1 J2]|D]; [|eauto].
  rewrite R1, R2 in X by assumption. discriminate.
Qed.

Lemma inv_progress : forall m0 js s t, inv m0 js s -> In t (snd s) ->
  (exists r, t = Done r) \/ exists s', pstep s s'.
Proof.
  intros m0 js [m ts] t [H _] Ht. cbn [fst snd] in *. apply in_split in Ht.
  destruct Ht as (ts1 & ts2 & ->). apply Forall2_app_inv_l in H. destruct H as (js1 & js2 & H1 & H & ->).
  inversion H as [|t' j l l' Dj H2]; subst.
  destruct t as [r|a k|a v k]; [left; eauto|right..].
  - destruct (does_next _ _ _ _ _ Dj eq_refl) as (_ & N & _). destruct (m a) as [x|] eqn:E; [|contradiction].
    eexists. apply ps_read, E.
  - destruct (does_next _ _ _ _ _ Dj eq_refl) as (_ & N & _). eexists. apply ps_write, N.
Qed.

Lemma inv_stuck : forall m0 js s, inv m0 js s -> stuck s ->
  snd s = map (fun r => Done (Ok r)) (map jr js) /\
  forall j a, In j js -> jF j a = true -> fst s a = jf j a.
Proof.
  intros m0 js [m ts] H Hs. cbn [fst snd].
  assert (Q : Forall (fun t => exists r, t = Done r) ts).
  { apply Forall_forall. intros t Ht. destruct (inv_progress _ _ _ _ H Ht) as [Q|[s' Q]]; [exact Q|].
    destruct (Hs _ Q). }
  destruct H as [H _]. cbn [fst snd] in H. clear Hs.
  induction H as [|t j ts js D H IH]; [split; [reflexivity|intros j a []]|].
  inversion Q as [|x l [r ->] Q2]; subst. destruct (IH Q2) as [I1 I2].
  destruct D as [L _]. destruct (lives_done _ _ _ _ _ _ L) as [-> E]. split.
  - cbn [map]. f_equal. exact I1.
  - intros i a [<-|Hi] Fa; [apply E, Fa|eapply I2; eassumption].
Qed.

(** Every execution ends. *)
Inductive child : thread A -> thread A -> Prop :=
| ch_read : forall a k x, child (k x) (Read a k)
| ch_write : forall a v k, child k (Write a v k).

Lemma child_acc : forall t, Acc child t.
Proof.
  induction t as [r|a k IH|a v k IH]; constructor; intros u U; inversion U; subst; auto.
Qed.

Inductive lstep : list (thread A) -> list (thread A) -> Prop :=
| ls_here : forall t u ts, child u t -> lstep (u :: ts) (t :: ts)
| ls_there : forall t us ts, lstep us ts -> lstep (t :: us) (t :: ts).

Lemma lstep_acc : forall ts, Acc lstep ts.
Proof.
  induction ts as [|t ts IH]; [constructor; intros u U; inversion U|].
  revert ts IH. induction (child_acc t) as [t _ IHt]. intros ts Hts.
  induction Hts as [ts Hts IHs]. constructor. intros u U. inversion U; subst.
  - apply IHt; [assumption|constructor; exact Hts].
  - apply IHs; assumption.
Qed.

Lemma lstep_app : forall ts1 t u ts2, child u t -> lstep (ts1 ++ u :: ts2) (ts1 ++ t :: ts2).
Proof. induction ts1; intros; cbn [app]; [apply ls_here; assumption|apply ls_there; auto]. Qed.

Lemma pool_ends : forall s : pool A, ends s.
Proof.
  intros [m ts]. revert m. induction (lstep_acc ts) as [ts _ IH]. intros m. constructor.
  intros s' St. inversion St; subst; apply IH, lstep_app; constructor.
Qed.

(** ** One after the other *)
Fixpoint turns (cs : list (M A)) : M (list A) :=
  match cs with
  | [] => ret []
  | c :: cs' => let* x := c in let* xs := turns cs' in ret (x :: xs)
  end.

Definition calls m (c : M A) j : Prop :=
  lives (jF j) c m (jr j) (jf j) /\ (jro j = true -> forall a, jF j a = true -> jf j a = m a).

Lemma turns_ok : forall cs js m, ForallOrdPairs apart js -> Forall2 (calls m) cs js ->
  exists m', turns cs m = Ok (map jr js, m') /\
    (forall j a, In j js -> jF j a = true -> m' a = jf j a) /\
    (forall a, (forall j, In j js -> jF j a = false) -> m' a = m a).
Proof.
  induction cs as [|c cs IH]; intros js m Ap H; inversion H as [|c' j l js' [L R] Hr]; subst.
  - exists m. split; [reflexivity|]. split; [intros j a []|reflexivity].
  - inversion Ap as [|x y Aj Ar]; subst. rewrite Forall_forall in Aj.
    destruct (L m (fun a _ => eq_refl)) as (m1 & E1 & I1 & O1).
    assert (K : forall i a, In i js' -> jF i a = true -> m1 a = m a).
    { intros i a Hi Fa. destruct (jF j a) eqn:Fj; [|apply O1, Fj].
      rewrite I1 by exact Fj. destruct (Aj i Hi) as [[J _]|D]; [apply R; assumption|].
      exfalso. eauto. }
    assert (Hr1 : Forall2 (calls m1) cs js').
    { clear - Hr K. induction Hr as [|c i cs js [L R] H IH]; constructor.
      - split.
        + eapply lives_same; [exact L|]. intros a Fa. apply (K i); [left; reflexivity|exact Fa].
        + intros J a Fa. rewrite (K i); [apply R; assumption|left; reflexivity|exact Fa].
      - apply IH. intros i' a Hi. apply K. right. exact Hi. }
    destruct (IH js' m1 Ar Hr1) as (m' & E' & I' & O').
    exists m'. split; [|split].
    + cbn [turns map]. unfold bind. rewrite E1, E'. reflexivity.
    + intros i a [<-|Hi] Fa; [|eapply I'; eassumption].
      destruct (existsb (fun i => jF i a) js') eqn:X.
      * apply existsb_exists in X. destruct X as (i & Hi & Fi). rewrite (I' i a Hi Fi).
        destruct (Aj i Hi) as [[J1 J2]|D]; [|exfalso; eauto].
        assert (Ri : forall b, jF i b = true -> jf i b = m b).
        { clear - Hr Hi J2. induction Hr as [|c k cs js [L R] H IH]; [destruct Hi|].
          destruct Hi as [->|Hi]; auto. }
        rewrite Ri by exact Fi. symmetry. apply R; assumption.
      * rewrite O', I1; [reflexivity|exact Fa|]. intros i Hi. destruct (jF i a) eqn:Fi; [|reflexivity].
        assert (T : existsb (fun i => jF i a) js' = true) by (apply existsb_exists; eauto). congruence.
    + intros a Ha. rewrite O' by (intros i Hi; apply Ha; right; exact Hi).
      apply O1, Ha. left. reflexivity.
Qed.

Lemma run_together : forall m ts cs js, ForallOrdPairs apart js ->
  Forall2 (does m) ts js -> Forall2 (calls m) cs js ->
  exists m', turns cs m = Ok (map jr js, m') /\
    forall s, psteps (m, ts) s -> ~ race s /\
      (stuck s -> snd s = map (fun r => Done (Ok r)) (map jr js) /\ forall a, fst s a = m' a).
Proof.
  intros m ts cs js Ap Ht Hc. destruct (turns_ok _ _ _ Ap Hc) as (m' & E & I' & O').
  exists m'. split; [exact E|]. intros s St.
  assert (Hi : inv m js s). { eapply inv_steps; [exact Ap|exact St|]. split; [exact Ht|reflexivity]. }
  split; [eapply inv_no_race; eassumption|]. intros Hs.
  destruct (inv_stuck _ _ _ Hi Hs) as [S1 S2]. split; [exact S1|]. intros a.
  destruct (existsb (fun i => jF i a) js) eqn:X.
  - apply existsb_exists in X. destruct X as (i & Hin & Fi). rewrite (S2 i), (I' i) by assumption. reflexivity.
  - assert (N : forall j, In j js -> jF j a = false).
    { intros j Hj. destruct (jF j a) eqn:Fj; [|reflexivity].
      assert (T : existsb (fun i => jF i a) js = true) by (apply existsb_exists; eauto). congruence. }
    rewrite O' by exact N. apply Hi, N.
Qed.
End Jobs.

(** ** The calls *)
Lemma word_of_end : forall w m it, valid_w w -> valid_it w it -> mapped w m (addr w it) (addr w it + 1) ->
  m (ib it) <> None.
Proof.
  intros w m it Vw Vi M. pose proof (valid_pos w Vw). unfold valid_it in Vi. unfold addr in M.
  specialize (M (ib it * w + ip it) ltac:(lia)).
  rewrite Z.div_add_l, (Z.div_small (ip it)), Z.add_0_r in M by lia. exact M.
Qed.

Lemma bound_ok : forall A B (c : M A) (f : A -> B) m r m1, c m = Ok (r, m1) ->
  exists o m1, (let* x := c in ret (f x)) m = Ok (o, m1).
Proof. intros A B c f m r m1 E. unfold bind. rewrite E. eexists _, _. reflexivity. Qed.

Lemma call_ok : forall p w m c, valid_w w -> wf_mem w m -> call_pre p w c -> present w m c ->
  exists o m1, run_call p w c m = Ok (o, m1).
Proof.
  intros p w m c Vw Wf Hp Hm. pose proof (valid_pos w Vw) as Pw.
  assert (G : forall f l, some_range w f l -> In (addr w f, addr w l) (ranges w c) -> good_range w m f l).
  { intros f l (Vf & Vl & Hr) Hi. split; [exact Vf|]. split; [exact Vl|]. split; [lia|]. apply Hm, Hi. }
  assert (D : forall d n, valid_it w d -> In (addr w d, addr w d + n) (ranges w c) -> good_dest w m d n).
  { intros d n Vd Hi. split; [exact Vd|]. apply Hm, Hi. }
  assert (O : forall it, In (addr w it, addr w it + 1) (ranges w c) -> mapped w m (addr w it) (addr w it + 1)).
  { intros it Hi. apply Hm, Hi. }
  assert (S : forall f l, some_range w f l -> In (addr w f, addr w l) (ranges w c) -> m (ib f) <> None).
  { intros f l Hf Hi. apply (word_of_end w); [exact Vw|apply Hf|]. intros i Ii.
    destruct Hf as (_ & _ & Hf). apply (Hm _ _ Hi). lia. }
  destruct c; cbn [run_call call_pre ranges] in *.
  - destruct (fill_ok p w m first last b Vw Wf (G _ _ Hp ltac:(cbn; auto))) as (m1 & E & _).
    eapply bound_ok, E.
  - destruct Hp as (H1 & H2 & H3).
    destruct (copy_ok p w m first last d Vw Wf (G _ _ H1 ltac:(cbn; auto)) (D _ _ H2 ltac:(cbn; auto)) H3)
      as (r & m1 & E & _). eapply bound_ok, E.
  - destruct Hp as (H1 & H2 & H3).
    destruct (copy_ok p w m first last d Vw Wf (G _ _ H1 ltac:(cbn; auto)) (D _ _ H2 ltac:(cbn; auto)) H3)
      as (r & m1 & E & _). unfold move. eapply bound_ok, E.
  - destruct Hp as (H1 & H2 & H3 & H4).
    destruct (copy_backward_ok p w m first last d Vw Wf (G _ _ H1 ltac:(cbn; auto))
      (conj H2 (Hm _ _ (or_intror (or_introl eq_refl)))) H3 H4) as (r & m1 & E & _). eapply bound_ok, E.
  - destruct Hp as (H1 & H2 & H3).
    destruct (swap_ranges_ok p w m first last first2 Vw Wf (G _ _ H1 ltac:(cbn; auto))
      (D _ _ H2 ltac:(cbn; auto)) ltac:(lia)) as (r & m1 & E & _). eapply bound_ok, E.
  - destruct Hp as (H1 & H2 & H3).
    destruct (reverse_ok p w m first last Vw Wf (G _ _ H1 ltac:(cbn; auto)) H2
      (fun X => or_intror (S _ _ H1 ltac:(cbn; auto))) H3) as (m1 & E & _). eapply bound_ok, E.
  - destruct Hp as (H1 & H2 & H3 & H4 & H5 & H6).
    destruct (rotate_ok p w m first n_first last Vw Wf (G _ _ H1 ltac:(cbn; auto)) H2 H3 H4 H6 H5)
      as (r & m1 & E & _). eapply bound_ok, E.
  - destruct Hp as (H1 & H2 & H3 & g & H4).
    destruct (transform1_ok p w op g m first last d Vw Wf (G _ _ H1 ltac:(cbn; auto))
      (D _ _ H2 ltac:(cbn; auto)) H3 (fun x Hx => proj1 (H4 x Hx)) (fun x k Hx Hk => proj2 (H4 x Hx) k Hk))
      as (r & m1 & E & _). eapply bound_ok, E.
  - destruct Hp as (H1 & H2 & H3 & H4 & H5 & g & H6).
    destruct (transform2_ok p w op g m first last first2 d Vw Wf (G _ _ H1 ltac:(cbn; auto))
      (D _ _ H2 ltac:(cbn; auto)) (D _ _ H3 ltac:(cbn; auto)) H4 H5
      (fun x y Hx Hy => proj1 (H6 x y Hx Hy)) (fun x y k Hx Hy Hk => proj2 (H6 x y Hx Hy) k Hk))
      as (r & m1 & E & _). eapply bound_ok, E.
  - destruct Hp as (H1 & H2 & H3).
    destruct (shift_left_ok p w m first last n Vw Wf (G _ _ H1 ltac:(cbn; auto)) H2 H3) as (r & m1 & E & _).
    eapply bound_ok, E.
  - destruct Hp as (H1 & H2 & H3).
    destruct (shift_right_ok p w m first last n Vw Wf (G _ _ H1 ltac:(cbn; auto)) H2 H3) as (r & m1 & E & _).
    eapply bound_ok, E.
  - destruct (find_ok p w m first last b Vw Wf (G _ _ Hp ltac:(cbn; auto))
      (fun _ => S _ _ Hp ltac:(cbn; auto))) as (r & E & _). eapply bound_ok, E.
  - destruct Hp as (H1 & H2).
    eapply bound_ok. apply (count_ok t p w m first last b Vw Wf (G _ _ H1 ltac:(cbn; auto)) H2).
    intros _. apply (S _ _ H1). cbn. auto.
  - destruct Hp as (H1 & H2).
    destruct (equal_ok p w m first last d Vw Wf (G _ _ H1 ltac:(cbn; auto)) (D _ _ H2 ltac:(cbn; auto)))
      as (r & E & _). eapply bound_ok, E.
  - assert (X : wp (let! r := ideref p w it in let* b := ref_get r in ret (ABool b)) m (fun _ _ => True)).
    { apply wp_bind, (wp_deref p w Vw); [exact Hp|]. intros r R.
      apply wp_bind. eapply (wp_get w Vw); [exact Wf|exact R|apply O; cbn; auto|]. apply wp_ret. exact I. }
    destruct (wp_exists _ _ _ _ X) as (o & m1 & E & _). eauto.
  - assert (X : wp (let! r := ideref p w it in ref_assign_val w r b ;; ret AUnit) m (fun _ _ => True)).
    { apply wp_bind, (wp_deref p w Vw); [exact Hp|]. intros r R.
      apply wp_bind. eapply (wp_put p w Vw); [exact Wf|exact R|apply O; cbn; auto|]. intros m' _. apply wp_ret. exact I. }
    destruct (wp_exists _ _ _ _ X) as (o & m1 & E & _). eauto.
  - assert (X : wp (let! r := ideref p w it in ref_flip r ;; ret AUnit) m (fun _ _ => True)).
    { apply wp_bind, (wp_deref p w Vw); [exact Hp|]. intros r R.
      destruct (ref_set_ok w m r (addr w it) true Vw Wf R ltac:(apply O; cbn; auto)) as (_ & _ & _ & m' & E & _).
      apply wp_bind, (wp_ok _ _ _ _ _ _ E), wp_ret. exact I. }
    destruct (wp_exists _ _ _ _ X) as (o & m1 & E & _). eauto.
  - destruct Hp as (H1 & H2).
    assert (X : wp (let! r := ideref p w it1 in let! s := ideref p w it2 in ref_swap r s ;; ret AUnit) m
      (fun _ _ => True)).
    { apply wp_bind, (wp_deref p w Vw); [exact H1|]. intros r R.
      apply wp_bind, (wp_deref p w Vw); [exact H2|]. intros s T'.
      apply wp_bind. eapply (wp_exchange w Vw); [exact Wf|exact R|exact T'|apply O; cbn; auto..|].
      intros m' _ _ _. apply wp_ret. exact I. }
    destruct (wp_exists _ _ _ _ X) as (o & m1 & E & _). eauto.
Qed.

(** The words of a call. *)
Definition holdsb (w : Z) (c : call) (a : Z) : bool :=
  existsb (fun '(lo, hi) => (lo <? hi) && (lo / w <=? a) && (a <=? (hi - 1) / w)) (ranges w c).

Lemma holdsb_spec : forall w c a, 0 < w -> holdsb w c a = true <-> holds w c a.
Proof.
  intros w c a Pw. unfold holdsb, holds. rewrite existsb_exists. split.
  - intros ([lo hi] & Hi & H). apply andb_prop in H. destruct H as [H H3].
    apply andb_prop in H. destruct H as [H1 H2].
    apply Z.ltb_lt in H1. apply Z.leb_le in H2, H3.
    exists lo, hi, (Z.max lo (a * w)). split; [exact Hi|].
    assert (a * w <= hi - 1).
    { pose proof (Z.mul_div_le (hi - 1) w Pw). clear - H H3 Pw. nia. }
    assert (lo < (a + 1) * w).
    { pose proof (Z.mul_succ_div_gt lo w Pw). clear - H0 H2 Pw. nia. }
    split; [lia|]. symmetry. apply (Z.div_unique_pos _ _ _ (Z.max lo (a * w) - a * w)); lia.
  - intros (lo & hi & i & Hi & H & <-). exists (lo, hi). split; [exact Hi|].
    rewrite (proj2 (Z.ltb_lt lo hi)) by lia.
    rewrite (proj2 (Z.leb_le (lo / w) (i / w))) by (apply Z.div_le_mono; lia).
    apply Z.leb_le. apply Z.div_le_mono; lia.
Qed.

Lemma call_lives : forall p w m c, valid_w w -> wf_mem w m -> call_pre p w c -> present w m c ->
  exists r f, lives (holdsb w c) (run_call p w c) m r f.
Proof.
  intros p w m c Vw Wf Hp Hm. pose proof (valid_pos w Vw) as Pw.
  assert (Wc : wf_mem w (cut (holdsb w c) m)).
  { intros a x. unfold cut. destruct (holdsb w c a); [apply Wf|discriminate]. }
  assert (Hc : present w (cut (holdsb w c) m) c).
  { intros lo hi Hi i Ii. unfold cut.
    rewrite (proj2 (holdsb_spec w c (i / w) ltac:(lia))) by (exists lo, hi, i; auto).
    exact (Hm lo hi Hi i Ii). }
  destruct (call_ok p w _ c Vw Wc Hp Hc) as (r & f & E). exists r, f. apply lives_cut; [|exact E].
  destruct (st_run_call p w c) as [t [_ T]].
  intros n big Hb. rewrite <- !T. apply framed_thread, Hb.
Qed.

Lemma in_turn_turns : forall p w cs m, in_turn p w cs m = turns (map (run_call p w) cs) m.
Proof.
  intros p w. induction cs as [|c cs IH]; intros m; [reflexivity|]. cbn [in_turn map turns]. unfold bind.
  destruct (run_call p w c m) as [[x m1]| | | |]; try reflexivity. rewrite IH. reflexivity.
Qed.

Lemma lives_ext : forall A F (c d : M A) m r f, (forall n, c n = d n) -> lives F c m r f -> lives F d m r f.
Proof. intros A F c d m r f E H m' Hm. rewrite <- E. apply H, Hm. Qed.

(** The jobs of the calls. *)
Lemma jobs : forall p w m cs ts, valid_w w -> wf_mem w m -> Forall (call_pre p w) cs ->
  Forall (present w m) cs -> Forall2 (carries_out p w) ts cs ->
  exists js, Forall2 (does m) ts js /\ Forall2 (calls m) (map (run_call p w) cs) js /\
    Forall2 (fun c j => jF j = holdsb w c /\ jro j = nonmodifying c) cs js.
Proof.
  intros p w m cs ts Vw Wf Hp Hm Ht. induction Ht as [|t c ts cs [T R] Ht IH].
  - exists []. repeat constructor.
  - inversion Hp as [|x y P1 P2]; inversion Hm as [|x' y' M1 M2]; subst.
    destruct (IH P2 M2) as (js & I1 & I2 & I3).
    destruct (call_lives p w m c Vw Wf P1 M1) as (r & f & L).
    assert (Lt : lives (holdsb w c) (alone t) m r f).
    { eapply lives_ext; [|exact L]. intros n. symmetry. apply T. }
    exists (Job (holdsb w c) (nonmodifying c) r f :: js). split; [|split].
    + constructor; [|exact I1]. split; [exact Lt|exact R].
    + constructor; [|exact I2]. split; [exact L|]. intros J. exact (lives_reads_only _ _ _ _ _ _ (R J) Lt).
    + constructor; [|exact I3]. split; reflexivity.
Qed.

Lemma jobs_apart : forall w cs (js : list (job answer)), 0 < w -> all_compatible w cs ->
  Forall2 (fun c j => jF j = holdsb w c /\ jro j = nonmodifying c) cs js -> ForallOrdPairs apart js.
Proof.
  intros w cs js Pw Hc H. induction H as [|c j cs js [F R] H IH]; [constructor|].
  inversion Hc as [|x y C1 C2]; subst. constructor; [|apply IH, C2].
  clear - F R H C1 Pw. induction H as [|d i cs js [Fi Ri] H IH]; [constructor|].
  inversion C1 as [|x y D1 D2]; subst. constructor; [|apply IH, D2].
  destruct D1 as [[N1 N2]|D1]; [left; rewrite R, Ri; auto|right].
  rewrite F, Fi. intros a A1 A2. apply holdsb_spec in A1, A2; [|assumption..]. eauto.
Qed.

Lemma threads_ok : forall p w m cs ts, valid_w w -> wf_mem w m -> Forall (call_pre p w) cs ->
  Forall (present w m) cs -> all_compatible w cs -> Forall2 (carries_out p w) ts cs ->
  exists outs m', in_turn p w cs m = Ok (outs, m') /\ ends (m, ts) /\
    forall s, psteps (m, ts) s -> ~ race s /\
      (stuck s -> snd s = map (fun o => Done (Ok o)) outs /\ forall a, fst s a = m' a).
Proof.
  intros p w m cs ts Vw Wf Hp Hm Hc Ht. pose proof (valid_pos w Vw) as Pw.
  destruct (jobs p w m cs ts Vw Wf Hp Hm Ht) as (js & I1 & I2 & I3).
  pose proof (jobs_apart w cs js ltac:(lia) Hc I3) as Ap.
  destruct (run_together m ts _ js Ap I1 I2) as (m' & E & R).
  exists (map jr js), m'. split; [rewrite in_turn_turns; exact E|]. split; [apply pool_ends|exact R].
Qed.

Lemma threads_exist : forall p w c, exists t, carries_out p w t c.
Proof.
  intros p w c. destruct (st_run_call p w c) as [t [R T]]. exists t. split; [exact T|exact R].
Qed.

(** ** Schedules *)

(** The thread number [n] makes its next access, if it can. *)
Definition turn {A} (n : nat) (s : pool A) : pool A :=
  match nth_error (snd s) n with
  | Some (Read a k) =>
    match fst s a with
    | Some x => (fst s, firstn n (snd s) ++ k x :: skipn (S n) (snd s))
    | None => s
    end
  | Some (Write a v k) =>
    match fst s a with
    | Some _ => (mset (fst s) a v, firstn n (snd s) ++ k :: skipn (S n) (snd s))
    | None => s
    end
  | _ => s
  end.

Definition schedule {A} (l : list nat) (s : pool A) : pool A := fold_left (fun s n => turn n s) l s.

Lemma nth_split' : forall A (l : list A) n x, nth_error l n = Some x ->
  l = firstn n l ++ x :: skipn (S n) l.
Proof.
  intros A. induction l as [|y l IH]; intros [|n] x H; cbn in H; try discriminate.
  - injection H as ->. reflexivity.
  - cbn [firstn skipn app]. f_equal. rewrite (IH n x H) at 1. reflexivity.
Qed.

Lemma turn_step : forall A n (s : pool A), turn n s = s \/ pstep s (turn n s).
Proof.
  intros A n [m ts]. unfold turn. cbn [fst snd].
  destruct (nth_error ts n) as [t|] eqn:E; [|left; reflexivity].
  pose proof (nth_split' _ _ _ _ E) as S. destruct t as [r|a k|a v k]; [left; reflexivity|..];
    destruct (m a) as [x|] eqn:Ea; try (left; reflexivity); right; rewrite S at 1.
  - apply ps_read, Ea.
  - apply ps_write. congruence.
Qed.

Lemma schedule_steps : forall A l (s : pool A), psteps s (schedule l s).
Proof.
  intros A. induction l as [|n l IH]; intros s; cbn [schedule fold_left]; [constructor|].
  destruct (turn_step _ n s) as [E|E].
  - rewrite E. apply IH.
  - eapply pss_more; [exact E|apply IH].
Qed.

Definition finished {A} (s : pool A) : bool :=
  forallb (fun t => match t with Done _ => true | _ => false end) (snd s).

Lemma finished_stuck : forall A (s : pool A), finished s = true -> stuck s.
Proof.
  intros A s H s' St. unfold finished in H. destruct St; cbn [snd] in H;
    rewrite forallb_app in H; apply andb_prop in H; destruct H as [_ H]; discriminate.
Qed.

Lemma race_two : forall A (s : pool A) t u a x y, snd s = [t; u] ->
  next_access t = Some (a, x) -> next_access u = Some (a, y) -> x || y = true -> race s.
Proof. intros A s t u a x y E H1 H2 H3. exists [], t, [], u, [], a, x, y. auto. Qed.

(** Setting two bits of one word. *)
Definition set_thread (w a i : Z) (b : bool) : thread answer :=
  Read a (fun x => Write a (if b then Z.lor x (2 ^ i) else wrap w (Z.land x (Z.lnot (2 ^ i))))
    (Done (Ok AUnit))).

Lemma set_steps : forall p w a i b, valid_w w -> 0 <= i < w ->
  carries_out p w (set_thread w a i b) (CSet (It a i) b).
Proof.
  intros p w a i b Vw Hi. split; [|discriminate]. intros m.
  cbn [run_call]. unfold ideref. cbn [ib ip]. rewrite mk_ref_eq by assumption.
  unfold set_thread, ref_assign_val, ref_set1, ref_reset, load, store, bind, lift, ret.
  cbn [alone rptr rmask].
  destruct b; cbn [rptr rmask]; destruct (m a) eqn:Ea; try rewrite Ea; reflexivity.
Qed.

Lemma bit_word : forall w m a x i, 0 < w -> 0 <= i < w -> m a = Some x ->
  bit w m (a * w + i) = Z.testbit x i.
Proof.
  intros w m a x i Pw Hi E. unfold bit.
  rewrite Z.div_add_l, (Z.div_small i), Z.add_0_r, E by lia.
  rewrite Z.add_comm, Z.mod_add, Z.mod_small by lia. reflexivity.
Qed.

Lemma set_bit_word : forall w x i b k, 0 < w -> 0 <= i < w -> 0 <= k < w ->
  Z.testbit (if b : bool then Z.lor x (2 ^ i) else wrap w (Z.land x (Z.lnot (2 ^ i)))) k =
  if k =? i then b else Z.testbit x k.
Proof.
  intros w x i b k Pw Hi Hk. destruct b.
  - rewrite Z.lor_spec, Z.pow2_bits_eqb by lia. rewrite (Z.eqb_sym i k).
    destruct (k =? i); [apply orb_true_r|apply orb_false_r].
  - unfold wrap. rewrite Z.mod_pow2_bits_low by lia.
    rewrite Z.land_spec, Z.lnot_spec, Z.pow2_bits_eqb by lia. rewrite (Z.eqb_sym i k).
    destruct (k =? i); [apply andb_false_r|apply andb_true_r].
Qed.

Lemma lost_update : forall p w (m : mem) a i j (b c : bool), valid_w w -> m a <> None ->
  0 <= i < w -> 0 <= j < w -> i <> j ->
  exists t u s, carries_out p w t (CSet (It a i) b) /\ carries_out p w u (CSet (It a j) c) /\
    psteps (m, [t; u]) s /\ stuck s /\
    bit w (fst s) (a * w + i) = bit w m (a * w + i) /\ bit w (fst s) (a * w + j) = c.
Proof.
  intros p w m a i j b c Vw Na Hi Hj Hij. pose proof (valid_pos w Vw) as Pw.
  destruct (m a) as [x|] eqn:Ea; [|contradiction].
  exists (set_thread w a i b), (set_thread w a j c),
    (schedule [0; 1; 0; 1]%nat (m, [set_thread w a i b; set_thread w a j c])).
  split; [apply set_steps; assumption|]. split; [apply set_steps; assumption|].
  split; [apply schedule_steps|].
  set (y := if c then Z.lor x (2 ^ j) else wrap w (Z.land x (Z.lnot (2 ^ j)))).
  set (z := if b then Z.lor x (2 ^ i) else wrap w (Z.land x (Z.lnot (2 ^ i)))).
  assert (E : schedule [0; 1; 0; 1]%nat (m, [set_thread w a i b; set_thread w a j c]) =
    (mset (mset m a z) a y, [Done (Ok AUnit); Done (Ok AUnit)])).
  { unfold schedule, set_thread. cbn [fold_left]. unfold turn at 4.
    cbn [fst snd nth_error firstn skipn app]. rewrite Ea. unfold turn at 3.
    cbn [fst snd nth_error firstn skipn app]. rewrite Ea. unfold turn at 2.
    cbn [fst snd nth_error firstn skipn app]. rewrite Ea. unfold turn.
    cbn [fst snd nth_error firstn skipn app]. unfold mset at 1. rewrite Z.eqb_refl. reflexivity. }
  rewrite E. split; [apply finished_stuck; reflexivity|]. cbn [fst].
  assert (Ey : mset (mset m a z) a y a = Some y) by (unfold mset; rewrite Z.eqb_refl; reflexivity).
  split.
  - rewrite (bit_word w _ a y i), (bit_word w m a x i) by (assumption || lia).
    unfold y. rewrite set_bit_word by lia. destruct (Z.eqb_spec i j); [contradiction|reflexivity].
  - rewrite (bit_word w _ a y j) by (assumption || lia).
    unfold y. rewrite set_bit_word by lia. rewrite Z.eqb_refl. reflexivity.
Qed.

(** ** Sharing a word *)

Fixpoint trace {A} (t : thread A) (m : mem) : list Z :=
  match t with
  | Done _ => []
  | Read a k => a :: match m a with Some x => trace (k x) m | None => [] end
  | Write a v k => a :: match m a with Some _ => trace k (mset m a v) | None => [] end
  end.

Lemma unmap_trace : forall A (t : thread A) m a r m1, alone t m = Ok (r, m1) ->
  ~ In a (trace t m) -> exists m2, alone t (unmap a m) = Ok (r, m2).
Proof.
  intros A. induction t as [x|c k IH|c v k IH]; intros m a r m1 E N; cbn [alone trace] in *.
  - destruct x; try discriminate. injection E as -> _. eexists. reflexivity.
  - unfold unmap at 1. destruct (Z.eqb_spec c a) as [->|Nc]; [destruct N; left; reflexivity|].
    destruct (m c) as [y|]; [|discriminate]. eapply IH; [exact E|]. intros X. apply N. right. exact X.
  - unfold unmap at 1. destruct (Z.eqb_spec c a) as [->|Nc]; [destruct N; left; reflexivity|].
    destruct (m c) as [y|]; [|discriminate].
    destruct (IH _ a _ _ E) as (m2 & E2). { intros X. apply N. right. exact X. }
    assert (X : forall b, unmap a (mset m c v) b = mset (unmap a m) c v b).
    { intros b. unfold unmap, mset. destruct (Z.eqb_spec b a) as [->|]; [|reflexivity].
      destruct (Z.eqb_spec a c); [congruence|reflexivity]. }
    pose proof (alone_ext _ k _ _ X) as Y. rewrite E2 in Y. destruct Y as (m3 & E3 & _). eauto.
Qed.

Lemma to_write : forall A (u t : thread A) (U : Z -> bool) n r n1 a, alone t n = Ok (r, n1) ->
  n1 a <> n a -> U a = true ->
  exists n' b v k, psteps (n, [t; u]) (n', [Write b v k; u]) /\ U b = true /\
    forall b, U b = true -> n' b = n b.
Proof.
  intros A u. induction t as [x|c k IH|c v k IH]; intros U n r n1 a E D Ua; cbn [alone] in E.
  - destruct x; try discriminate. injection E as _ <-. contradiction.
  - destruct (n c) as [y|] eqn:Ec; [|discriminate].
    destruct (IH y U n r n1 a E D Ua) as (n' & b & v & k' & S & Ub & Hn).
    exists n', b, v, k'. split; [|auto]. eapply pss_more; [|exact S].
    apply (ps_read n [] c k [u] y Ec).
  - destruct (n c) as [y|] eqn:Ec; [|discriminate].
    destruct (U c) eqn:Uc; [exists n, c, v, k; split; [constructor|auto]|].
    assert (X : forall b, U b = true -> mset n c v b = n b).
    { intros b Ub. unfold mset. destruct (Z.eqb_spec b c); [congruence|reflexivity]. }
    destruct (IH U (mset n c v) r n1 a E) as (n' & b & v' & k' & S & Ub & Hn).
    { rewrite X; assumption. } { exact Ua. }
    exists n', b, v', k'. split; [|split; [exact Ub|]].
    + eapply pss_more; [|exact S]. apply (ps_write n [] c v k [u]). congruence.
    + intros d Ud. rewrite Hn, X by exact Ud. reflexivity.
Qed.

Lemma to_access : forall A (t u : thread A) m n b, In b (trace u m) ->
  (forall d, In d (trace u m) -> n d = m d) ->
  exists n' u' x, psteps (n, [t; u]) (n', [t; u']) /\ next_access u' = Some (b, x).
Proof.
  intros A t. induction u as [x|c k IH|c v k IH]; intros m n b Hb Hn; cbn [trace] in *; [destruct Hb|..].
  - destruct (Z.eq_dec c b) as [->|N].
    { exists n, (Read b k), false. split; [constructor|reflexivity]. }
    destruct Hb as [Hb|Hb]; [contradiction|]. destruct (m c) as [y|] eqn:Ec; [|destruct Hb].
    destruct (IH y m n b Hb) as (n' & u' & x & S & E). { intros d Hd. apply Hn. right. exact Hd. }
    exists n', u', x. split; [|exact E]. eapply pss_more; [|exact S].
    apply (ps_read n [t] c k [] y). rewrite Hn by (left; reflexivity). exact Ec.
  - destruct (Z.eq_dec c b) as [->|N].
    { exists n, (Write b v k), true. split; [constructor|reflexivity]. }
    destruct Hb as [Hb|Hb]; [contradiction|]. destruct (m c) as [y|] eqn:Ec; [|destruct Hb].
    destruct (IH (mset m c v) (mset n c v) b Hb) as (n' & u' & x & S & E).
    { intros d Hd. unfold mset. destruct (d =? c); [reflexivity|]. apply Hn. right. exact Hd. }
    exists n', u', x. split; [|exact E]. eapply pss_more; [|exact S].
    apply (ps_write n [t] c v k []). rewrite Hn by (left; reflexivity). congruence.
Qed.

Lemma psteps_trans : forall A (s s' s'' : pool A), psteps s s' -> psteps s' s'' -> psteps s s''.
Proof. intros A s s' s'' H. induction H; intros; [assumption|]. eapply pss_more; eauto. Qed.

Lemma shared_word_race : forall p w m c d t u a o1 m1 o2 m2,
  carries_out p w t c -> carries_out p w u d ->
  run_call p w c m = Ok (o1, m1) -> m1 a <> m a ->
  run_call p w d m = Ok (o2, m2) -> run_call p w d (unmap a m) = UB OutOfBounds ->
  exists s, psteps (m, [t; u]) s /\ race s.
Proof.
  intros p w m c d t u a o1 m1 o2 m2 [T _] [U _] E1 D1 E2 N2. rewrite <- T in E1. rewrite <- U in E2, N2.
  assert (Ha : In a (trace u m)).
  { destruct (in_dec Z.eq_dec a (trace u m)) as [H|H]; [exact H|].
    destruct (unmap_trace _ _ _ _ _ _ E2 H) as (m3 & E3). congruence. }
  set (F := fun b => if in_dec Z.eq_dec b (trace u m) then true else false).
  assert (HF : forall b, F b = true <-> In b (trace u m)).
  { intros b. unfold F. destruct (in_dec Z.eq_dec b (trace u m)); split; auto; discriminate. }
  destruct (to_write _ u t F m _ _ a E1 D1 (proj2 (HF a) Ha)) as (n & b & v & k & S1 & Fb & Hn).
  destruct (to_access _ (Write b v k) u m n b (proj1 (HF b) Fb)) as (n' & u' & x & S2 & E).
  { intros e He. apply Hn, HF, He. }
  exists (n', [Write b v k; u']). split.
  - eapply psteps_trans; eassumption.
  - eapply race_two; [reflexivity|reflexivity|exact E|reflexivity].
Qed.

Lemma thread_of_ok : forall p w c, carries_out p w (thread_of p w c) c.
Proof.
  intros p w c. unfold thread_of. destruct (st_run_call p w c) as [t [R T]]. split; [exact T|exact R].
Qed.

Lemma threads_of_ok : forall p w cs, Forall2 (carries_out p w) (map (thread_of p w) cs) cs.
Proof. intros p w. induction cs; constructor; [apply thread_of_ok|assumption]. Qed.

Lemma disjoint_bits_refuted : exists p w m c d ts s,
  valid_w w /\ wf_mem w m /\ Forall (call_pre p w) [c; d] /\ Forall (present w m) [c; d] /\
  (forall lo hi lo' hi', In (lo, hi) (ranges w c) -> In (lo', hi') (ranges w d) -> hi <= lo') /\
  Forall2 (carries_out p w) ts [c; d] /\ psteps (m, ts) s /\ stuck s /\
  forall cs outs m', cs = [c; d] \/ cs = [d; c] -> in_turn p w cs m = Ok (outs, m') ->
    exists a, fst s a <> m' a.
Proof.
  set (c := CFill (It 0 0) (It 1 4) true). set (d := CFill (It 1 4) (It 3 0) true).
  exists Strict17, 8, (mem_of [0; 0; 0]), c, d, (map (thread_of Strict17 8) [c; d]),
    (schedule [0; 0; 1; 1; 1; 0]%nat (mem_of [0; 0; 0], map (thread_of Strict17 8) [c; d])).
  split; [demo|]. split; [demo|].
  split; [repeat constructor; cbn; unfold some_range, valid_it, addr, max_bits; cbn; lia|].
  split. { repeat constructor; intros lo hi [H|[]]; injection H as <- <-; cbn; demo. }
  split. { intros lo hi lo' hi' [H|[]] [H'|[]]. injection H as <- <-. injection H' as <- <-. cbn. lia. }
  split; [apply threads_of_ok|]. split; [apply schedule_steps|].
  split; [apply finished_stuck; vm_compute; reflexivity|].
  intros cs outs m' Hc E. exists 1.
  assert (X : m' 1 = Some 255).
  { assert (Y : match in_turn Strict17 8 cs (mem_of [0; 0; 0]) with Ok (_, n) => n 1 = Some 255 | _ => True end)
      by (destruct Hc as [-> | ->]; vm_compute; reflexivity).
    rewrite E in Y. exact Y. }
  rewrite X. vm_compute. discriminate.
Qed.
