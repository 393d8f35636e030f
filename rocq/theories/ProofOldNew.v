(** Proofs for C76: what the words hold while an algorithm runs. *)
From Coq Require Import ZArith Bool List Lia.
From Coq Require FinFun.
From Verif Require Import Base WordOps IterModel PopcntModel Spec ProofBase ProofIter
  AlgModel ShiftModel ReverseModel ThreadModel TraceModel SpecCost SpecReads ProofTrace
  ProofCost ProofCost2 ProofCost3 ProofWrites.
From Verif Require TransformModel SwapModel RotateModel ProofCost6 ProofRange ProofShift Demo.
Import ListNotations.
Open Scope Z_scope.

Lemma unwritten : forall A (t : thread A) m r m' a, alone t m = Ok (r, m') ->
  ~ In a (write_at t m) -> m' a = m a.
Proof.
  intros A. induction t as [x|c k IH|c v k IH]; intros m r m' a E N; cbn [alone write_at] in *.
  - destruct x; try discriminate E. cbn in E. injection E as _ <-. reflexivity.
  - destruct (m c) as [y|]; [|discriminate]. eapply IH; eauto.
  - destruct (m c) as [y|]; [|discriminate]. cbn [In] in N.
    rewrite (IH _ _ _ a E) by tauto. unfold mset. destruct (Z.eqb_spec a c) as [C|C]; [|reflexivity].
    exfalso. apply N. left. congruence.
Qed.

Lemma single_step : forall A m (t : thread A) s, pstep (m, [t]) s ->
  (exists c k x, t = Read c k /\ m c = Some x /\ s = (m, [k x])) \/
  (exists c v k, t = Write c v k /\ m c <> None /\ s = (mset m c v, [k])).
Proof.
  intros A m t s H. inversion H; subst.
  - destruct ts1 as [|y ts1]; cbn in H2; injection H2 as E1 E2.
    + subst. left. eauto 8.
    + destruct ts1; discriminate E2.
  - destruct ts1 as [|y ts1]; cbn in H2; injection H2 as E1 E2.
    + subst. right. eauto 8.
    + destruct ts1; discriminate E2.
Qed.

Lemma old_or_new : forall A (m0 m' : mem) r s s', psteps s s' -> forall m (t : thread A), s = (m, [t]) ->
  NoDup (write_at t m) -> alone t m = Ok (r, m') ->
  (forall a, In a (write_at t m) -> m a = m0 a) ->
  forall a, fst s' a = m0 a \/ fst s' a = m' a.
Proof.
  intros A m0 m' r s s' H. induction H as [s|s s1 s2 H H2 IH]; intros m t -> ND E Old a.
  - cbn [fst]. destruct (in_dec Z.eq_dec a (write_at t m)) as [I|N]; [left; auto|right].
    symmetry. eapply unwritten; eauto.
  - destruct (single_step _ _ _ _ H) as [(c & k & x & -> & Em & ->)|(c & v & k & -> & Em & ->)].
    + cbn [write_at alone] in ND, E, Old. rewrite Em in ND, E, Old. eapply IH; eauto.
    + cbn [write_at alone] in ND, E, Old. destruct (m c) as [y|]; [|contradiction].
      inversion ND; subst. eapply IH; eauto.
      intros b Hb. unfold mset. destruct (Z.eqb_spec b c) as [C|C]; [subst; contradiction|].
      apply Old. right. exact Hb.
Qed.

Lemma from_to_nodup : forall a b, NoDup (from_to a b).
Proof.
  intros a b. unfold from_to. apply FinFun.Injective_map_NoDup; [|apply seq_NoDup].
  intros i j H. lia.
Qed.

Lemma once : forall A (t : thread A) m r m', alone t m = Ok (r, m') -> NoDup (write_at t m) ->
  forall s, psteps (m, [t]) s -> forall a, fst s a = m a \/ fst s a = m' a.
Proof. intros A t m r m' E ND s H a. eapply old_or_new; eauto. Qed.

Lemma ups_once : forall A (t : thread A) a b P m x, ups t a b P -> alone t m = Ok x -> NoDup (write_at t m).
Proof. intros A t a b P m x H E. rewrite (ups_written _ _ _ _ _ H _ _ E). apply from_to_nodup. Qed.

Lemma downs_once : forall A (t : thread A) a b P m x, downs t a b P -> alone t m = Ok x -> NoDup (write_at t m).
Proof.
  intros A t a b P m x H E. rewrite (downs_written _ _ _ _ _ H _ _ E). apply NoDup_rev, from_to_nodup.
Qed.

(** Empty ranges. *)
Lemma u_fill0 : forall p w first last b a, valid_w w -> valid_it w first -> valid_it w last ->
  addr w last - addr w first = 0 -> ups (fill p w first last b) a a any.
Proof.
  intros p w first last b a Vw V1 V2 H. pose proof (valid_pos w Vw) as W. unfold fill. cbv zeta.
  rewrite assert_viable_eq, distance_eq by (assumption || lia). u1. u1. rewrite H.
  change (0 =? 0) with true. cbn iota. us.
Qed.

Lemma u_copy0 : forall p w first last d a, valid_w w -> valid_it w first -> valid_it w last ->
  addr w last - addr w first = 0 -> ups (copy p w first last d) a a any.
Proof.
  intros p w first last d a Vw V1 V2 H. unfold copy. pose proof (valid_pos w Vw). cbv zeta.
  rewrite assert_viable_eq by (assumption || lia). u1. rewrite (ieq_addr w) by (assumption || lia).
  destruct (Z.eqb_spec (addr w first) (addr w last)); [us|lia].
Qed.

Lemma u_transform10 : forall p w op first last d a, valid_w w -> valid_it w first -> valid_it w last ->
  addr w last - addr w first = 0 -> ups (transform1 p w op first last d) a a any.
Proof.
  intros p w op first last d a Vw V1 V2 H. unfold transform1. pose proof (valid_pos w Vw). cbv zeta.
  rewrite assert_viable_eq by (assumption || lia). u1. rewrite (ieq_addr w) by (assumption || lia).
  destruct (Z.eqb_spec (addr w first) (addr w last)); [us|lia].
Qed.

Lemma u_transform20 : forall p w op first last first2 d a, valid_w w -> valid_it w first -> valid_it w last ->
  addr w last - addr w first = 0 -> ups (transform2 p w op first last first2 d) a a any.
Proof.
  intros p w op first last first2 d a Vw V1 V2 H. unfold transform2. pose proof (valid_pos w Vw). cbv zeta.
  rewrite assert_viable_eq by (assumption || lia). u1. rewrite (ieq_addr w) by (assumption || lia).
  destruct (Z.eqb_spec (addr w first) (addr w last)); [us|lia].
Qed.

Lemma d_copy_backward0 : forall p w first last d a, valid_w w -> valid_it w first -> valid_it w last ->
  addr w last - addr w first = 0 -> downs (copy_backward p w first last d) a a any.
Proof.
  intros p w first last d a Vw V1 V2 H. unfold copy_backward. pose proof (valid_pos w Vw). cbv zeta.
  rewrite assert_viable_eq by (assumption || lia). d1. rewrite (ieq_addr w) by (assumption || lia).
  destruct (Z.eqb_spec (addr w first) (addr w last)); [ds|lia].
Qed.

Lemma fill_old_or_new : forall p w first last b m x m', valid_w w -> valid_it w first ->
  valid_it w last -> 0 <= addr w last - addr w first <= max_bits ->
  AlgModel.fill p w first last b m = Ok (x, m') ->
  forall s, psteps (m, [fill p w first last b]) s -> forall a, fst s a = m a \/ fst s a = m' a.
Proof.
  intros p w first last b m x m' Vw V1 V2 H E.
  rewrite <- (proj1 (ProofCost6.same_calls p w m first first last first first b 0 (fun z => z) (fun z _ => z))) in E.
  eapply once; [exact E|].
  destruct (Z.eq_dec (addr w last - addr w first) 0) as [C|C]; (eapply ups_once; [|exact E]).
  - apply (u_fill0 _ _ _ _ _ 0); assumption.
  - apply u_fill; assumption || lia.
Qed.

Lemma copy_old_or_new : forall p w op op2 first last first2 d m x m', valid_w w -> valid_it w first ->
  valid_it w last -> valid_it w d -> 0 <= addr w last - addr w first <= max_bits ->
  let sees_only t := forall s, psteps (m, [t]) s -> forall a, fst s a = m a \/ fst s a = m' a in
  (AlgModel.copy p w first last d m = Ok (x, m') -> sees_only (copy p w first last d)) /\
  (AlgModel.move p w first last d m = Ok (x, m') -> sees_only (move p w first last d)) /\
  (AlgModel.copy_backward p w first last d m = Ok (x, m') -> sees_only (copy_backward p w first last d)) /\
  (TransformModel.transform1 p w op first last d m = Ok (x, m') ->
     sees_only (transform1 p w op first last d)) /\
  (TransformModel.transform2 p w op2 first last first2 d m = Ok (x, m') ->
     sees_only (transform2 p w op2 first last first2 d)).
Proof.
  intros p w op op2 first last first2 d m x m' Vw V1 V2 Vd H. cbv zeta.
  destruct (ProofCost6.same_calls p w m first first last first2 d true 0 op op2)
    as (_ & _ & _ & S1 & S2 & S5 & S3 & S4 & _).
  rewrite <- S1, <- S2, <- S3, <- S4, <- S5.
  split; [|split; [|split; [|split]]]; intros E; (eapply once; [exact E|]);
    destruct (Z.eq_dec (addr w last - addr w first) 0) as [C|C].
  - eapply ups_once; [apply (u_copy0 _ _ _ _ _ 0); assumption|exact E].
  - eapply ups_once; [apply u_copy; assumption || lia|exact E].
  - eapply ups_once; [apply (u_copy0 _ _ _ _ _ 0); assumption|exact E].
  - eapply ups_once; [apply u_copy; assumption || lia|exact E].
  - eapply downs_once; [apply (d_copy_backward0 _ _ _ _ _ 0); assumption|exact E].
  - eapply downs_once; [apply d_copy_backward; assumption || lia|exact E].
  - eapply ups_once; [apply (u_transform10 _ _ _ _ _ _ 0); assumption|exact E].
  - eapply ups_once; [apply u_transform1; assumption || lia|exact E].
  - eapply ups_once; [apply (u_transform20 _ _ _ _ _ _ _ 0); assumption|exact E].
  - eapply ups_once; [apply u_transform2; assumption || lia|exact E].
Qed.

(** The first [n] accesses of a thread that runs alone (no /repo lines). *)
Fixpoint after {A} (n : nat) (m : mem) (t : thread A) : pool A :=
  match n, t with
  | S n', Read a k => match m a with Some x => after n' m (k x) | None => (m, [t]) end
  | S n', Write a v k => match m a with Some _ => after n' (mset m a v) k | None => (m, [t]) end
  | _, _ => (m, [t])
  end.

Lemma after_steps : forall A n m (t : thread A), psteps (m, [t]) (after n m t).
Proof.
  intros A. induction n as [|n IH]; intros m t; cbn [after]; [apply pss_none|].
  destruct t as [r|a k|a v k]; [apply pss_none| |].
  - destruct (m a) as [x|] eqn:E; [|apply pss_none]. eapply pss_more; [|apply IH].
    apply (ps_read _ [] a k [] x E).
  - destruct (m a) as [x|] eqn:E; [|apply pss_none]. eapply pss_more; [|apply IH].
    apply (ps_write _ [] a v k []). congruence.
Qed.

(** Every write goes to a lower word than the write before; all are below a. *)
Fixpoint falls {A} (t : thread A) (a : Z) (P : A -> Z -> Prop) : Prop :=
  match t with
  | Done (Ok x) => P x a
  | Done _ => True
  | Read _ k => forall x, falls (k x) a P
  | Write c _ k => c < a /\ falls k c P
  end.

Definition anyb {A} (x : A) (a : Z) : Prop := True.

Lemma falls_bind : forall A B (t : thread A) (f : A -> thread B) a P Q,
  falls t a P -> (forall x b, P x b -> falls (f x) b Q) -> falls (tbind t f) a Q.
Proof.
  intros A B t f. induction t as [r|d k IH|d v k IH]; intros a P Q H HF; cbn [falls tbind] in *.
  - destruct r; cbn [falls]; auto.
  - intros x. eapply IH; eauto.
  - destruct H as [H1 H2]. split; [exact H1|]. eapply IH; eauto.
Qed.

Lemma falls_mono : forall A (t : thread A) a a' (P Q : A -> Z -> Prop), falls t a P -> a <= a' ->
  (forall x b b', P x b -> b <= b' -> Q x b') -> falls t a' Q.
Proof.
  intros A t. induction t as [r|d k IH|d v k IH]; intros a a' P Q H L HF; cbn [falls] in *.
  - destruct r; eauto.
  - intros x. eapply IH; eauto.
  - destruct H as [H1 H2]. split; [lia|]. eapply IH; eauto. lia.
Qed.

Lemma falls_below : forall A (t : thread A) a P m, falls t a P ->
  (forall c, In c (write_at t m) -> c < a) /\ NoDup (write_at t m).
Proof.
  intros A. induction t as [r|c k IH|c v k IH]; intros a P m H; cbn [falls write_at] in *.
  - split; [intros c []|constructor].
  - destruct (m c) as [y|]; [eapply IH; eauto|split; [intros d []|constructor]].
  - destruct H as [H1 H2].
    destruct (m c) as [y|]; [|split; [intros d [<-|[]]; exact H1|constructor; [intros []|constructor]]].
    destruct (IH _ _ (mset m c v) H2) as [I1 I2]. split.
    + intros d [<-|I]; [exact H1|]. pose proof (I1 _ I). lia.
    + constructor; [|exact I2]. intros I. pose proof (I1 _ I). lia.
Qed.

Lemma fb_ret : forall A B (x : A) (f : A -> thread B) a Q, falls (f x) a Q -> falls (tbind (ret x) f) a Q.
Proof. intros. exact H. Qed.
Lemma fb_ok : forall A B (x : A) (f : A -> thread B) a Q, falls (f x) a Q -> falls (tbind (lift (Ok x)) f) a Q.
Proof. intros. exact H. Qed.
Lemma fb_lift : forall A B (r : res A) (f : A -> thread B) a Q, (forall x, r = Ok x -> falls (f x) a Q) ->
  falls (tbind (lift r) f) a Q.
Proof. intros A B r f a Q H. destruct r; cbn; auto. Qed.
Lemma fb_load : forall B c (f : Z -> thread B) a Q, (forall x, falls (f x) a Q) -> falls (tbind (load c) f) a Q.
Proof. intros B c f a Q H. cbn. exact H. Qed.
Lemma fb_store : forall B c v (f : unit -> thread B) a Q, c < a -> falls (f tt) c Q ->
  falls (tbind (store c v) f) a Q.
Proof. intros B c v f a Q H H0. cbn. auto. Qed.
Lemma f_ret : forall A (x : A) a (P : A -> Z -> Prop), P x a -> falls (ret x) a P.
Proof. intros. exact H. Qed.
Lemma f_lift : forall A (r : res A) a (P : A -> Z -> Prop), (forall x, r = Ok x -> P x a) -> falls (lift r) a P.
Proof. intros A r a P H. destruct r; cbn; auto. Qed.
Lemma f_store : forall c v a (P : unit -> Z -> Prop), c < a -> P tt c -> falls (store c v) a P.
Proof. intros. cbn. auto. Qed.
Lemma fb_assoc : forall A B C (t : thread A) (f : A -> thread B) (g : B -> thread C) a Q,
  falls (tbind t (fun x => tbind (f x) g)) a Q -> falls (tbind (tbind t f) g) a Q.
Proof.
  intros A B C t f g. induction t as [x|c k IH|c v k IH]; intros a Q H; cbn [tbind falls] in *.
  - destruct x; cbn in *; auto.
  - intros x. apply IH, H.
  - destruct H as [H1 H2]. split; [exact H1|]. apply IH, H2.
Qed.

Ltac f1 :=
  match goal with
  | |- falls (tbind (ret _) _) _ _ => apply fb_ret
  | |- falls (tbind (lift (Ok _)) _) _ _ => apply fb_ok
  | |- falls (tbind (load _) _) _ _ => apply fb_load; intro
  | |- falls (tbind (store _ _) _) _ _ => apply fb_store; [lia|]
  | |- falls (tbind (lift _) _) _ _ => apply fb_lift; intros ? ?
  | |- falls (ret _) _ _ => apply f_ret
  | |- falls (lift _) _ _ => apply f_lift; intros ? ?
  | |- falls (store _ _) _ _ => apply f_store; [lia|]
  | |- falls (let _ := _ in _) _ _ => cbv zeta
  | |- falls (if ?b then _ else _) _ _ => destruct b eqn:?
  | |- falls (tbind (tbind _ _) _) _ _ => apply fb_assoc
  end.

Lemma f_get_word : forall p w it len a, falls (get_word p w it len) a (fun _ b => b = a).
Proof. intros p w it len a. unfold get_word. repeat f1; auto. Qed.

Lemma f_write_word : forall p w x it len a, ip it + len <= w -> ib it < a ->
  falls (write_word p w x it len) a (fun _ b => b = ib it).
Proof.
  intros p w x it len a H H1. unfold write_word. cbv zeta.
  destruct ((ip it =? 0) && (len =? w)); [repeat f1; reflexivity|].
  destruct (Z.ltb_spec (w - ip it) len) as [C|C]; [lia|]. repeat f1. reflexivity.
Qed.

Lemma f_words_copy_backward : forall n s e a, e <= a -> falls (words_copy_backward n s e) a anyb.
Proof.
  induction n as [|n IH]; intros s e a H; cbn [words_copy_backward]; [repeat f1; exact I|].
  repeat f1. apply IH. lia.
Qed.

Lemma f_shift_right_loop : forall p w n fb l mb o a, l < a -> fb <= mb ->
  falls (shift_right_loop p w n fb l mb o) a (fun '(l', mb') b => l' < b /\ mb' = fb).
Proof.
  intros p w. induction n as [|n IH]; intros fb l mb o a H H1; cbn [shift_right_loop];
    destruct (Z.ltb_spec fb mb) as [C|C]; repeat f1; try discriminate; try (split; lia).
  apply IH; lia.
Qed.

Lemma below_word : forall w it n r, valid_w w -> valid_it w it -> 0 <= n <= w -> ip it = 0 \/ n <= ip it ->
  isub w it n = Ok r ->
  (ip it = 0 -> n <> 0 -> ib r = ib it - 1 /\ ip r + n = w) /\
  (n <= ip it -> ib r = ib it /\ ip r = ip it - n).
Proof.
  intros w it n r Vw V H H0 E. pose proof (valid_pos w Vw) as W.
  assert (W2 : w <= 128) by (unfold valid_w in Vw; lia). unfold valid_it in V.
  rewrite isub_eq in E by (assumption || lia). injection E as <-. cbn [ib ip]. split.
  - intros E N. rewrite E. destruct (Z.eq_dec n w) as [->|].
    + replace (0 - w) with ((-1) * w) by lia. rewrite Z.div_mul, Z.mod_mul by lia. lia.
    + replace (0 - n) with (w - n + (-1) * w) by lia. rewrite Z.div_add, Z.mod_add by lia.
      rewrite Z.div_small, Z.mod_small by lia. lia.
  - intros L. rewrite Z.div_small, Z.mod_small by lia. lia.
Qed.

Lemma f_shift_right_main : forall p w first last middle n a, valid_w w -> valid_it w first ->
  valid_it w last -> valid_it w middle -> ip last = 0 -> ib last <= a ->
  0 <= addr w middle - addr w first <= max_bits ->
  falls (shift_right_main p w first last middle n) a anyb.
Proof.
  intros p w first last middle n a Vw V1 V2 Vm L0 La H. pose proof (valid_pos w Vw) as W.
  unfold max_bits in H. unfold shift_right_main. cbv zeta. destruct (ip middle =? 0) eqn:E0.
  - apply falls_bind with (P := anyb); [|intros; repeat f1; exact I].
    unfold word_shift_right. repeat f1; try exact I.
    apply falls_bind with (P := anyb); [apply f_words_copy_backward; lia|]. intros. repeat f1. exact I.
  - rewrite distance_eq by (assumption || lia). f1.
    apply falls_bind with (P := fun '(l, mi) b => ip l = 0 /\ valid_it w mi /\ ib l <= b /\
      0 <= addr w mi - addr w first <= w).
    + destruct (Z.leb_spec w (addr w middle - addr w first)) as [C|C];
        [|f1; unfold valid_it in *; lia].
      unfold shift_right_words.
      assert (ib first <= ib middle - 1) by (unfold addr, valid_it in *; nia).
      eapply falls_bind; [apply f_shift_right_loop; lia|].
      intros [l mb] b [B1 ->]. unfold valid_it in *.
      destruct (Z.leb_spec (ip first) (ip middle)) as [D|D]; repeat f1; cbn [ib ip]; unfold addr; cbn [ib ip];
        unfold addr in *; nia.
    + intros [l mi] b (P1 & P2 & P3 & P4).
      apply falls_bind with (P := anyb); [|intros; repeat f1; exact I].
      destruct (Z.eqb_spec (ip first) (ip mi)) as [D|D]; cbn [negb]; [f1; exact I|].
      rewrite distance_eq by (assumption || lia). f1.
      eapply falls_bind; [apply f_get_word|]. intros x ? ->. f1.
      destruct (below_word w l (addr w mi - addr w first) x0) as [Q1 _]; try assumption; try lia.
      { unfold valid_it in *. split; lia. }
      assert (addr w mi - addr w first <> 0)
        by (intros Z; apply D; assert (EQ : addr w mi = addr w first) by lia;
            pose proof (addr_base w mi ltac:(lia) P2) as B1; pose proof (addr_base w first ltac:(lia) V1) as B2;
            rewrite EQ in B1; assert (BE : ib mi = ib first) by congruence;
            unfold addr in EQ; rewrite BE in EQ; lia).
      destruct Q1 as [Q1 Q2]; [assumption|assumption|].
      eapply falls_mono; [apply f_write_word with (a := b); lia|lia|]. intros; exact I.
Qed.

Lemma f_shift_right : forall p w first last n, valid_w w -> valid_it w first ->
  valid_it w last -> 0 <= addr w last - addr w first <= max_bits ->
  falls (shift_right p w first last n) (ib last + 1) anyb.
Proof.
  intros p w first last n Vw V1 V2 H. pose proof (valid_pos w Vw) as W.
  unfold max_bits in H. unfold shift_right. cbv zeta.
  rewrite distance_eq by (assumption || lia). f1. apply fb_lift. intros middle Hm.
  destruct (Z.leb_spec n 0) as [C1|C1]; [f1; exact I|].
  destruct (Z.leb_spec (addr w last - addr w first) n) as [C2|C2]; [f1; exact I|].
  destruct (ProofCost3.isub_down w last n middle Vw V2 Hm) as [M1 [M2 M3]]; [lia|].
  assert (ib first <= ib last) by (unfold addr, valid_it in *; nia).
  destruct (one_word first last); [repeat f1; exact I|].
  destruct (Z.eqb_spec (ip last) 0) as [L|L]; cbn [negb].
  - apply f_shift_right_main; assumption || unfold max_bits; lia.
  - rewrite (distance_eq w first middle) by (assumption || lia). f1. apply fb_lift. intros src Hs.
    eapply falls_bind; [apply f_get_word|]. intros x ? ->. apply fb_lift. intros dst Hd.
    set (k := Z.min (ip last) (addr w middle - addr w first)) in *.
    assert (K : 0 < k <= ip last) by (unfold k, valid_it in *; lia).
    assert (K2 : k < ip last -> k = addr w middle - addr w first) by (unfold k; lia).
    assert (K3 : k <= addr w middle - addr w first) by (unfold k; lia). clearbody k.
    assert (V2' := V2). unfold valid_it in V2'.
    destruct (below_word w last k dst) as [_ Q]; try assumption; try lia. destruct Q as [Q1 Q2]; [lia|].
    eapply falls_bind; [apply f_write_word; lia|]. intros _ ? ->.
    apply fb_lift. intros mi Hmi. apply fb_lift. intros la Hla. unfold isub_assign in *.
    destruct (ProofCost3.isub_down w middle k mi Vw M2 Hmi) as [I1 [I2 I3]]; [lia|].
    destruct (ProofCost3.isub_down w last k la Vw V2 Hla) as [J1 [J2 J3]]; [lia|].
    rewrite (ieq_addr w) by (assumption || lia).
    destruct (Z.eqb_spec (addr w mi) (addr w first)) as [D|D]; [f1; exact I|].
    destruct (Z.eq_dec k (ip last)) as [E|E]; [|lia].
    rewrite Hla in Hd. injection Hd as <-.
    apply f_shift_right_main; assumption || unfold max_bits; lia.
Qed.

Lemma shift_right_old_or_new : forall p w first last n m x m', valid_w w -> valid_it w first ->
  valid_it w last -> 0 <= addr w last - addr w first <= max_bits ->
  ShiftModel.shift_right p w first last n m = Ok (x, m') ->
  forall s, psteps (m, [shift_right p w first last n]) s -> forall a, fst s a = m a \/ fst s a = m' a.
Proof.
  intros p w first last n m x m' Vw V1 V2 H E.
  assert (E' : alone (shift_right p w first last n) m = Ok (x, m')).
  { rewrite <- E. apply ProofTrace.sm_shift_right. }
  eapply once; [exact E'|]. eapply (proj2 (falls_below _ _ _ _ m (f_shift_right p w first last n Vw V1 V2 H))).
Qed.

Lemma wf_demo : wf_mem 8 (Demo.mem_of [165; 60; 15; 200]).
Proof.
  intros a x. unfold Demo.mem_of. cbn [length]. destruct (Z.leb_spec 0 a), (Z.ltb_spec a (Z.of_nat 4)); cbn [andb];
    try discriminate. intros E. injection E as <-.
  assert (a = 0 \/ a = 1 \/ a = 2 \/ a = 3) as C by lia.
  destruct C as [-> | [-> | [-> | ->]]]; vm_compute; split; congruence.
Qed.

(** Words that hold neither in between. *)
Lemma swap_ranges_in_between : exists p w first last first2 m x m' s a, valid_w w /\ wf_mem w m /\
  valid_it w first /\ valid_it w last /\ valid_it w first2 /\ addr w last <= addr w first2 /\
  SwapModel.swap_ranges p w first last first2 m = Ok (x, m') /\
  psteps (m, [swap_ranges p w first last first2]) s /\ fst s a <> m a /\ fst s a <> m' a.
Proof.
  exists Strict20, 8, (It 0 2), (It 0 6), (It 1 1), (Demo.mem_of [165; 60; 15; 200]).
  eexists. eexists. exists (after 3 (Demo.mem_of [165; 60; 15; 200]) (swap_ranges Strict20 8 (It 0 2) (It 0 6) (It 1 1))), 0.
  split; [unfold valid_w; lia|]. split; [apply wf_demo|].
  split; [unfold valid_it; cbn; lia|]. split; [unfold valid_it; cbn; lia|].
  split; [unfold valid_it; cbn; lia|]. split; [unfold addr; cbn; lia|].
  split; [rewrite <- ProofTrace.sm_swap_ranges; vm_compute; reflexivity|].
  split; [apply after_steps|]. split; vm_compute; discriminate.
Qed.

Lemma shift_left_in_between : exists p w first last n m x m' s a, valid_w w /\ wf_mem w m /\
  valid_it w first /\ valid_it w last /\ 0 < n < addr w last - addr w first /\
  ShiftModel.shift_left p w first last n m = Ok (x, m') /\
  psteps (m, [shift_left p w first last n]) s /\ fst s a <> m a /\ fst s a <> m' a.
Proof.
  exists Strict20, 8, (It 0 2), (It 2 6), 5, (Demo.mem_of [165; 60; 15; 200]).
  eexists. eexists. exists (after 11 (Demo.mem_of [165; 60; 15; 200]) (shift_left Strict20 8 (It 0 2) (It 2 6) 5)), 1.
  split; [unfold valid_w; lia|]. split; [apply wf_demo|].
  split; [unfold valid_it; cbn; lia|]. split; [unfold valid_it; cbn; lia|].
  split; [unfold addr; cbn; lia|].
  split; [rewrite <- ProofTrace.sm_shift_left; vm_compute; reflexivity|].
  split; [apply after_steps|]. split; vm_compute; discriminate.
Qed.

Lemma rotate_in_between : exists p w first n_first last m x m' s a, valid_w w /\ wf_mem w m /\
  valid_it w first /\ valid_it w n_first /\ valid_it w last /\
  addr w first < addr w n_first < addr w last /\
  RotateModel.rotate p w first n_first last m = Ok (x, m') /\
  psteps (m, [rotate p w first n_first last]) s /\ fst s a <> m a /\ fst s a <> m' a.
Proof.
  exists Strict20, 8, (It 0 2), (It 1 1), (It 2 6), (Demo.mem_of [165; 60; 15; 200]).
  eexists. eexists. exists (after 13 (Demo.mem_of [165; 60; 15; 200]) (rotate Strict20 8 (It 0 2) (It 1 1) (It 2 6))), 1.
  split; [unfold valid_w; lia|]. split; [apply wf_demo|].
  split; [unfold valid_it; cbn; lia|]. split; [unfold valid_it; cbn; lia|].
  split; [unfold valid_it; cbn; lia|]. split; [unfold addr; cbn; lia|].
  split; [rewrite <- ProofTrace.sm_rotate; vm_compute; reflexivity|].
  split; [apply after_steps|]. split; vm_compute; discriminate.
Qed.

Lemma reverse_in_between : exists p w first last m x m' s i y z, valid_w w /\ wf_mem w m /\
  valid_it w first /\ valid_it w last /\ addr w first < addr w last /\
  ReverseModel.reverse p w first last m = Ok (x, m') /\
  psteps (m, [reverse p w first last]) s /\
  (i < addr w first \/ addr w last <= i) /\
  m (i / w) = Some y /\ fst s (i / w) = Some z /\ Z.testbit z (i mod w) <> Z.testbit y (i mod w).
Proof.
  exists Strict20, 8, (It 0 2), (It 2 6), (Demo.mem_of [165; 60; 15; 200]).
  eexists. eexists. exists (after 5 (Demo.mem_of [165; 60; 15; 200]) (reverse Strict20 8 (It 0 2) (It 2 6))), 1.
  exists 165, 15.
  split; [unfold valid_w; lia|]. split; [apply wf_demo|].
  split; [unfold valid_it; cbn; lia|]. split; [unfold valid_it; cbn; lia|].
  split; [unfold addr; cbn; lia|].
  split; [rewrite <- ProofTrace.sm_reverse; vm_compute; reflexivity|].
  split; [apply after_steps|]. split; [left; unfold addr; cbn; lia|].
  split; [reflexivity|]. split; [vm_compute; reflexivity|]. vm_compute. discriminate.
Qed.

(** The bits at every moment of the call. *)
Lemma bit_old_or_new : forall w (m m' n : mem) i, (forall a, n a = m a \/ n a = m' a) ->
  bit w n i = bit w m i \/ bit w n i = bit w m' i.
Proof.
  intros w m m' n i H. unfold bit. destruct (H (i / w)) as [-> | ->]; auto.
Qed.

Lemma fill_bits : forall p w m first last b s i, valid_w w -> wf_mem w m ->
  good_range w m first last -> psteps (m, [fill p w first last b]) s ->
  bit w (fst s) i = bit w m i \/
  (addr w first <= i < addr w last /\ bit w (fst s) i = b).
Proof.
  intros p w m first last b s i Vw Wf G H.
  destruct (ProofRange.fill_ok p w m first last b Vw Wf G) as (m' & E & _ & _ & U).
  destruct G as (V1 & V2 & D & _).
  destruct (bit_old_or_new w m m' (fst s) i (fill_old_or_new p w first last b m tt m' Vw V1 V2 D E s H)) as [C|C];
    [left; exact C|].
  rewrite C, U. unfold inr.
  destruct (Z.leb_spec (addr w first) i), (Z.ltb_spec i (addr w last)); cbn [andb]; auto.
Qed.

Lemma copy_bits : forall p w m first last d s i, valid_w w -> wf_mem w m ->
  good_range w m first last -> good_dest w m d (addr w last - addr w first) ->
  addr w d <= addr w first \/ addr w last <= addr w d ->
  psteps (m, [copy p w first last d]) s ->
  bit w (fst s) i = bit w m i \/
  (addr w d <= i < addr w d + (addr w last - addr w first) /\
   bit w (fst s) i = bit w m (addr w first + (i - addr w d))).
Proof.
  intros p w m first last d s i Vw Wf G Gd O H.
  destruct (ProofRange.copy_ok p w m first last d Vw Wf G Gd O) as (d' & m' & E & _ & _ & _ & _ & U).
  destruct G as (V1 & V2 & D & _). destruct Gd as (Vd & _).
  destruct (copy_old_or_new p w (fun z => z) (fun z _ => z) first last first d m d' m' Vw V1 V2 Vd D) as (K & _).
  destruct (bit_old_or_new w m m' (fst s) i (K E s H)) as [C|C]; [left; exact C|].
  rewrite C, U. unfold inr.
  destruct (Z.leb_spec (addr w d) i), (Z.ltb_spec i (addr w d + (addr w last - addr w first))); cbn [andb]; auto.
Qed.

Lemma shift_right_bits : forall o w m first last n s i, valid_w w -> wf_mem w m ->
  good_range w m first last -> 0 < n < addr w last - addr w first ->
  psteps (m, [shift_right (Hw o) w first last n]) s ->
  i < addr w first \/ addr w first + n <= i ->
  bit w (fst s) i = bit w m i \/
  (addr w first + n <= i < addr w last /\ bit w (fst s) i = bit w m (i - n)).
Proof.
  intros o w m first last n s i Vw Wf G N H Hi.
  destruct (ProofShift.shift_right_hw o w m first last n Vw Wf G N) as (r & m' & E & _ & _ & _ & _ & U1 & U2).
  destruct G as (V1 & V2 & D & _).
  destruct (bit_old_or_new w m m' (fst s) i
    (shift_right_old_or_new (Hw o) w first last n m r m' Vw V1 V2 D E s H)) as [C|C]; [left; exact C|].
  rewrite C. destruct (Z.lt_ge_cases i (addr w last)), (Z.lt_ge_cases i (addr w first)).
  - left. apply U2. lia.
  - right. split; [lia|]. apply U1. lia.
  - left. apply U2. lia.
  - left. apply U2. lia.
Qed.
