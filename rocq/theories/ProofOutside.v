(** Proofs for C76: bits outside the range while shift_left runs. *)
From Coq Require Import ZArith Bool List Lia.
From Verif Require Import Base WordOps IterModel PopcntModel Spec ProofBase ProofIter ProofWordOps2
  AlgModel ShiftModel ThreadModel TraceModel SpecCost SpecReads ProofTrace ProofCost ProofCost2
  ProofCost3 ProofWrites ProofOldNew.
From Verif Require ProofRange ProofTransform.
Import ListNotations.
Open Scope Z_scope.

Lemma blend_keeps : forall p w x y s l v k, valid_w w -> 0 <= s < w -> 0 <= l -> s + l <= w ->
  bitblend p w x y s l = Ok v -> 0 <= k < w -> s <= k < s + l \/ Z.testbit v k = Z.testbit x k.
Proof.
  intros p w x y s l v k Vw Hs Hl Hsl E Hk. pose proof (valid_pos w Vw) as W.
  assert (C : s <= k < s + l \/ (k < s \/ s + l <= k)) by lia. destruct C as [C|C]; [left; exact C|right].
  assert (O : 0 <= 2 ^ w - 1 < 2 ^ w) by (pose proof (Z.pow_pos_nonneg 2 w); lia).
  destruct (bitblend_ok p w 0 (2 ^ w - 1) s l) as (v0 & E0 & _ & B); try assumption; try lia.
  specialize (B k Hk). unfold bitblend in E, E0.
  destruct (cshl p w 1 l) as [s1| | | |]; cbn [rbind] in E, E0; try discriminate.
  destruct (cshl p w _ s) as [s2| | | |]; cbn [rbind] in E, E0; try discriminate.
  injection E as <-. injection E0 as <-. set (K := wrap w s2 * b2z (s <? w)) in *. clearbody K.
  unfold wrap in *. rewrite Z.mod_pow2_bits_low in B |- * by lia.
  rewrite ?Z.lxor_0_l in B. rewrite Z.land_spec in B.
  replace (Z.testbit (2 ^ w - 1) k) with true in B
    by (replace (2 ^ w - 1) with (Z.ones w) by (rewrite Z.ones_equiv; lia); symmetry; apply Z.ones_spec_low; lia).
  rewrite Z.bits_0 in B. cbn [andb] in B. unfold inr in B.
  assert (F : (s <=? k) && (k <? s + l) = false)
    by (destruct (Z.leb_spec s k), (Z.ltb_spec k (s + l)); try reflexivity; lia).
  rewrite F in B. rewrite Z.lxor_spec, Z.land_spec, B, andb_false_r, xorb_false_r. reflexivity.
Qed.

(** No write of the thread, run alone, changes a bit outside [lo, hi). *)
Fixpoint stays {A} (w lo hi : Z) (t : thread A) (m : mem) (P : A -> mem -> Prop) : Prop :=
  match t with
  | Done (Ok x) => P x m
  | Done _ => True
  | Read a k => match m a with Some x => stays w lo hi (k x) m P | None => True end
  | Write a v k =>
    match m a with
    | Some x => (forall j, 0 <= j < w -> lo <= a * w + j < hi \/ Z.testbit v j = Z.testbit x j) /\
                stays w lo hi k (mset m a v) P
    | None => True
    end
  end.

Definition anym {A} (x : A) (m : mem) : Prop := True.

Lemma stays_steps : forall A w lo hi s s', 0 < w -> psteps s s' -> forall m (t : thread A) P, s = (m, [t]) ->
  stays w lo hi t m P -> forall i, i < lo \/ hi <= i -> bit w (fst s') i = bit w m i.
Proof.
  intros A w lo hi s s' W H. induction H as [s|s s1 s2 H H2 IH]; intros m t P -> S i Hi; [reflexivity|].
  destruct (single_step _ _ _ _ H) as [(c & k & x & -> & Em & ->)|(c & v & k & -> & Em & ->)].
  - cbn [stays] in S. rewrite Em in S. eapply IH; eauto.
  - cbn [stays] in S. destruct (m c) as [y|] eqn:Ec; [|contradiction]. destruct S as [S1 S2].
    rewrite (IH _ _ _ eq_refl S2 i Hi). unfold bit, mset. destruct (Z.eqb_spec (i / w) c) as [C|C]; [|reflexivity].
    rewrite C, Ec. pose proof (Z.mod_pos_bound i w W). pose proof (Z.div_mod i w ltac:(lia)).
    destruct (S1 (i mod w)) as [D|D]; [lia| |exact D]. exfalso. subst c. nia.
Qed.

Lemma stays_mono : forall A w lo hi (t : thread A) m (P Q : A -> mem -> Prop),
  stays w lo hi t m P -> (forall x m', P x m' -> Q x m') -> stays w lo hi t m Q.
Proof.
  intros A w lo hi t. induction t as [r|d k IH|d v k IH]; intros m P Q H HF; cbn [stays] in *.
  - destruct r; auto.
  - destruct (m d); [|exact I]. eapply IH; eauto.
  - destruct (m d); [|exact I]. destruct H as [H1 H2]. split; [exact H1|]. eapply IH; eauto.
Qed.

Lemma stays_bind : forall A B w lo hi (t : thread A) (f : A -> thread B) m P Q,
  stays w lo hi t m P -> (forall x m', P x m' -> stays w lo hi (f x) m' Q) ->
  stays w lo hi (tbind t f) m Q.
Proof.
  intros A B w lo hi t f. induction t as [r|d k IH|d v k IH]; intros m P Q H HF; cbn [stays tbind] in *.
  - destruct r; cbn [stays]; auto.
  - destruct (m d); [|exact I]. eapply IH; eauto.
  - destruct (m d); [|exact I]. destruct H as [H1 H2]. split; [exact H1|]. eapply IH; eauto.
Qed.

Lemma sb_ret : forall w lo hi A B (x : A) (f : A -> thread B) m Q, stays w lo hi (f x) m Q -> stays w lo hi (tbind (ret x) f) m Q.
Proof. intros. exact H. Qed.
Lemma sb_ok : forall w lo hi A B (x : A) (f : A -> thread B) m Q, stays w lo hi (f x) m Q -> stays w lo hi (tbind (lift (Ok x)) f) m Q.
Proof. intros. exact H. Qed.
Lemma sb_lift : forall w lo hi A B (r : res A) (f : A -> thread B) m Q, (forall x, r = Ok x -> stays w lo hi (f x) m Q) ->
  stays w lo hi (tbind (lift r) f) m Q.
Proof. intros w lo hi A B r f m Q H. destruct r; cbn; auto. Qed.
Lemma sb_load : forall w lo hi B c (f : Z -> thread B) (m : mem) Q, (forall x, m c = Some x -> stays w lo hi (f x) m Q) ->
  stays w lo hi (tbind (load c) f) m Q.
Proof. intros w lo hi B c f m Q H. cbn. destruct (m c); auto. Qed.
Lemma sb_store : forall w lo hi B c v (f : unit -> thread B) (m : mem) Q,
  (forall x j, m c = Some x -> 0 <= j < w -> lo <= c * w + j < hi \/ Z.testbit v j = Z.testbit x j) ->
  stays w lo hi (f tt) (mset m c v) Q -> stays w lo hi (tbind (store c v) f) m Q.
Proof. intros w lo hi B c v f m Q H H0. cbn. destruct (m c) eqn:E; [split; [intros; eauto|exact H0]|exact I]. Qed.
Lemma s_ret : forall w lo hi A (x : A) m (P : A -> mem -> Prop), P x m -> stays w lo hi (ret x) m P.
Proof. intros. exact H. Qed.
Lemma s_lift : forall w lo hi A (r : res A) m (P : A -> mem -> Prop), (forall x, r = Ok x -> P x m) -> stays w lo hi (lift r) m P.
Proof. intros w lo hi A r m P H. destruct r; cbn; auto. Qed.
Lemma s_store : forall w lo hi c v (m : mem) (P : unit -> mem -> Prop),
  (forall x j, m c = Some x -> 0 <= j < w -> lo <= c * w + j < hi \/ Z.testbit v j = Z.testbit x j) ->
  P tt (mset m c v) -> stays w lo hi (store c v) m P.
Proof. intros w lo hi c v m P H H0. cbn. destruct (m c) eqn:E; [split; [intros; eauto|exact H0]|exact I]. Qed.
Lemma sb_assoc : forall w lo hi A B C (t : thread A) (f : A -> thread B) (g : B -> thread C) m Q,
  stays w lo hi (tbind t (fun x => tbind (f x) g)) m Q -> stays w lo hi (tbind (tbind t f) g) m Q.
Proof.
  intros w lo hi A B C t f g. induction t as [x|c k IH|c v k IH]; intros m Q H; cbn [tbind stays] in *.
  - destruct x; cbn in *; auto.
  - destruct (m c); [|exact I]. apply IH, H.
  - destruct (m c); [|exact I]. destruct H as [H1 H2]. split; [exact H1|]. apply IH, H2.
Qed.
(** The two kinds of stores. *)
Lemma inside : forall w lo hi c v x, lo <= c * w -> c * w + w <= hi ->
  forall j, 0 <= j < w -> lo <= c * w + j < hi \/ Z.testbit v j = Z.testbit x j.
Proof. intros. left. lia. Qed.

Lemma blended : forall p w lo hi c x y s l v (m : mem), valid_w w -> m c = Some x ->
  bitblend p w x y s l = Ok v -> 0 <= s < w -> 0 <= l -> s + l <= w -> lo <= c * w + s ->
  c * w + s + l <= hi ->
  forall x' j, m c = Some x' -> 0 <= j < w -> lo <= c * w + j < hi \/ Z.testbit v j = Z.testbit x' j.
Proof.
  intros p w lo hi c x y s l v m Vw E B H1 H2 H3 H4 H5 x' j E' Hj. rewrite E in E'. injection E' as <-.
  destruct (blend_keeps p w x y s l v j Vw H1 H2 H3 B Hj) as [C|C]; [left; lia|right; exact C].
Qed.

Ltac s1 :=
  match goal with
  | |- stays _ _ _ (tbind (ret _) _) _ _ => apply sb_ret
  | |- stays _ _ _ (tbind (lift (Ok _)) _) _ _ => apply sb_ok
  | |- stays _ _ _ (tbind (load _) _) _ _ => apply sb_load; intros ? ?
  | |- stays _ _ _ (tbind (lift _) _) _ _ => apply sb_lift; intros ? ?
  | |- stays _ _ _ (ret _) _ _ => apply s_ret
  | |- stays _ _ _ (lift _) _ _ => apply s_lift; intros ? ?
  | |- stays _ _ _ (let _ := _ in _) _ _ => cbv zeta
  | |- stays _ _ _ (tbind (tbind _ _) _) _ _ => apply sb_assoc
  end.
Ltac sblend := eapply blended; try eassumption; try lia.

Lemma s_get_word : forall p w lo hi it len m, stays w lo hi (get_word p w it len) m (fun _ m' => m' = m).
Proof.
  intros p w lo hi it len m. unfold get_word. destruct (w <? len); [s1; auto|]. cbv zeta. s1. s1.
  destruct (len <=? _); [s1; reflexivity|]. destruct (w <? _); [s1; reflexivity|]. repeat s1. reflexivity.
Qed.

Lemma s_write_word : forall p w lo hi x it len m, valid_w w -> valid_it w it -> 0 <= len <= w ->
  lo <= addr w it -> addr w it + len <= hi -> stays w lo hi (write_word p w x it len) m anym.
Proof.
  intros p w lo hi x it len m Vw V H L1 L2. pose proof (valid_pos w Vw) as W. unfold addr, valid_it in *.
  unfold write_word. cbv zeta. destruct ((ip it =? 0) && (len =? w)) eqn:E.
  - apply andb_true_iff in E. destruct E as [E1 E2]. apply Z.eqb_eq in E1, E2.
    apply s_store; [|exact I]. intros. eapply inside; lia.
  - repeat s1. apply sb_store; [sblend|].
    destruct (Z.ltb_spec (w - ip it) len) as [C|C]; [|s1; exact I].
    repeat s1. apply s_store; [sblend|exact I].
Qed.

Lemma s_words_copy : forall w lo hi n s d m, lo <= d * w -> (d + Z.of_nat n) * w <= hi -> 0 < w ->
  stays w lo hi (words_copy n s d) m anym.
Proof.
  intros w lo hi. induction n as [|n IH]; intros s d m H1 H2 W; cbn [words_copy]; [s1; exact I|].
  s1. apply sb_store; [intros; eapply inside; nia|]. apply IH; nia.
Qed.

Lemma s_shift_left_loop : forall p w lo hi n fb mb lb o m, 0 < w -> lo <= fb * w -> lb * w <= hi ->
  fb <= mb -> mb < lb ->
  stays w lo hi (shift_left_loop p w n fb mb lb o) m
    (fun '(f, mi) _ => fb <= f /\ f <= mi /\ mi + 1 = lb).
Proof.
  intros p w lo hi. induction n as [|n IH]; intros fb mb lb o m W H1 H2 H3 H4; cbn [shift_left_loop];
    destruct (Z.ltb_spec (mb + 1) lb) as [C|C]; repeat s1; try discriminate; try lia.
  apply sb_store; [intros; eapply inside; nia|].
  eapply stays_mono; [apply IH; nia|]. intros [f mi] m' K. lia.
Qed.

Lemma iadd_assign_up : forall w it n r, valid_w w -> valid_it w it -> iadd_assign w it n = Ok r ->
  0 <= n < 2 ^ 63 - 256 -> ib it <= ib r /\ valid_it w r /\ addr w r = addr w it + n.
Proof. intros w it n r. unfold iadd_assign. apply iadd_up. Qed.

(** Afterwards first is at the beginning of a word. *)
Lemma s_shift_left_align : forall p w lo hi first middle d n m, valid_w w -> valid_it w first ->
  valid_it w middle -> 0 < n -> addr w middle = addr w first + n -> w < d - n -> d <= max_bits ->
  lo <= addr w first -> addr w first + d <= hi ->
  stays w lo hi (shift_left_align p w first middle d n) m
    (fun '(f, mi) _ => valid_it w f /\ valid_it w mi /\ ip f = 0 /\ addr w first <= addr w f /\
       addr w mi = addr w f + n /\ addr w mi < addr w first + d).
Proof.
  intros p w lo hi first middle d n m Vw V1 Vm N M D D2 L1 L2. pose proof (valid_pos w Vw) as W.
  assert (W2 : w <= 128) by (unfold valid_w in Vw; lia). unfold max_bits in D2.
  unfold shift_left_align. destruct (Z.eqb_spec (ip first) 0) as [C|C]; cbn [negb];
    [s1; repeat split; assumption || (unfold valid_it in *; lia)|].
  assert (V1' := V1). assert (Vm' := Vm). unfold valid_it in V1', Vm'. unfold addr in L1, L2.
  apply stays_bind with (P := anym).
  - destruct (Z.leb_spec (ip middle) (ip first)) as [E|E].
    + repeat s1. apply s_store; [sblend|exact I].
    + repeat s1. apply sb_store; [sblend|]. repeat s1. apply s_store; [sblend|exact I].
  - intros _ m' _. cbv zeta. rewrite Z.min_r by lia.
    apply sb_lift. intros f Ef. apply sb_lift. intros mi Emi. s1.
    destruct (iadd_assign_up w first _ f Vw V1 Ef) as (F1 & F2 & F3); [lia|].
    destruct (iadd_assign_up w middle _ mi Vw Vm Emi) as (G1 & G2 & G3); [lia|].
    assert (Z0 : ip f = 0).
    { pose proof (addr_base w f ltac:(lia) F2) as B. unfold addr in F3, B. unfold valid_it in F2.
      assert (ib f * w + ip f = (ib first + 1) * w) by lia.
      assert (ib f = ib first + 1) by (rewrite <- B, H; apply Z.div_mul; lia). nia. }
    repeat split; try assumption; try (unfold valid_it in *; lia).
Qed.

Lemma base_lt : forall w a b, valid_w w -> valid_it w a -> valid_it w b -> addr w a <= addr w b -> ib a <= ib b.
Proof.
  intros w a b Vw Va Vb H. pose proof (valid_pos w Vw).
  rewrite <- (addr_base w a), <- (addr_base w b) by (assumption || lia). apply Z.div_le_mono; lia.
Qed.

Lemma s_shift_left : forall p w first last n m, valid_w w -> valid_it w first -> valid_it w last ->
  0 <= addr w last - addr w first <= max_bits ->
  stays w (addr w first) (addr w last) (shift_left p w first last n) m anym.
Proof.
  intros p w first last n m Vw V1 V2 H. pose proof (valid_pos w Vw) as W.
  assert (W2 : w <= 128) by (unfold valid_w in Vw; lia). unfold max_bits in H.
  unfold shift_left. cbv zeta.
  rewrite assert_viable_eq, distance_eq by (assumption || lia). s1. s1. apply sb_lift. intros middle Hm.
  destruct (Z.leb_spec n 0) as [C1|C1]; [s1; exact I|].
  destruct (Z.leb_spec (addr w last - addr w first) n) as [C2|C2]; [s1; exact I|].
  destruct (iadd_up w first n middle Vw V1 Hm) as [M1 [M2 M3]]; [lia|].
  assert (V1' := V1). assert (V2' := V2). unfold valid_it in V1', V2'.
  destruct (one_word first last) eqn:EO.
  { unfold one_word in EO. apply Z.eqb_eq in EO. unfold end_pos.
    destruct (Z.eqb_spec (ip last) 0) as [L|L]; cbn [b2z] in EO;
      (repeat s1; apply sb_store; [eapply blended; try eassumption; unfold addr in *; nia|repeat s1; exact I]). }
  destruct (Z.leb_spec (addr w last - addr w first - n) w) as [C3|C3].
  { eapply stays_bind; [apply s_get_word|]. intros x ? ->.
    eapply stays_bind; [apply s_write_word; assumption || lia|]. intros. repeat s1. exact I. }
  apply sb_load. intros fv Efv. apply stays_bind with (P := fun _ m0 => m0 = m).
  { destruct (negb _); [|s1; reflexivity]. cbn. destruct (m (ib last)); auto. }
  intros lv ? ->.
  eapply stays_bind; [apply s_shift_left_align; assumption || (unfold max_bits; lia)|].
  intros [f mi] m' (F1 & F2 & F3 & F4 & F5 & F6). cbv beta iota.
  replace (addr w first + (addr w last - addr w first)) with (addr w last) in F6 by lia.
  assert (B1 : ib f <= ib mi) by (apply (base_lt w); assumption || lia).
  assert (B2 : ib mi <= ib last) by (apply (base_lt w); assumption || lia).
  assert (F2' := F2). unfold valid_it in F2'.
  assert (Af : addr w f = ib f * w) by (unfold addr; lia).
  destruct (Z.eqb_spec (ib mi) (ib last)) as [D|D].
  { destruct (Z.ltb_spec 0 (ip last - ip mi)) as [D2|D2]; [|s1; exact I].
    repeat s1. apply sb_store; [|repeat s1; exact I]. eapply blended; try eassumption; try lia.
    unfold addr in F5, F6, F4 |- *. rewrite D in *. nia. }
  apply sb_lift. intros d' _. cbv zeta.
  assert (BL : ib last * w <= addr w last) by (unfold addr; lia).
  destruct (Z.eqb_spec (ip mi) 0) as [E|E].
  - assert (NW : n = (n / w) * w /\ ib mi = ib f + n / w).
    { assert (En : n = (ib mi - ib f) * w) by (unfold addr in F5; rewrite F3, E in F5; lia).
      assert (Eq : n / w = ib mi - ib f) by (rewrite En; apply Z.div_mul; lia). rewrite Eq. lia. }
    destruct NW as [NW1 NW2].
    apply stays_bind with (P := fun fb _ => ib f <= fb < ib last).
    + unfold word_shift_left. destruct (Z.leb_spec (n / w) 0); [nia|].
      destruct (Z.leb_spec (ib last - ib f) (n / w)); [s1; lia|]. cbv zeta.
      eapply stays_bind; [apply s_words_copy; nia|]. intros. s1. lia.
    + intros fb m2 K. destruct (Z.eqb_spec (ip last) 0); cbn [negb]; [s1; exact I|]. s1.
      eapply stays_bind; [apply s_write_word; try assumption; unfold valid_it, addr in *; cbn [ib ip]; nia|].
      intros. repeat s1. exact I.
  - eapply stays_bind; [apply s_shift_left_loop; lia|].
    intros [fb mb] m2 (K1 & K2 & K3). cbv beta iota zeta. cbn [ib ip].
    destruct (Z.eqb_spec (mb + 1) (ib last)) as [_|X]; [|lia]. do 1 s1. repeat s1.
    apply sb_store; [intros; eapply inside; nia|].
    apply sb_assoc, sb_lift. intros f2 Ef2. apply sb_assoc, sb_lift. intros m3 Em3. s1.
    destruct (iadd_assign_up w (It fb 0) (w - ip mi) f2 Vw) as (P1 & P2 & P3); [unfold valid_it; cbn; lia|exact Ef2|lia|].
    destruct (iadd_assign_up w (It mb (ip mi)) (w - ip mi) m3 Vw) as (Q1 & Q2 & Q3); [unfold valid_it; cbn; lia|exact Em3|lia|].
    destruct (Z.eqb_spec (ip last) 0); cbn [negb]; [s1; exact I|].
    assert (Q4 : addr w m3 = ib last * w) by (rewrite Q3; unfold addr; cbn [ib ip]; nia).
    assert (Q5 : ip m3 = 0).
    { pose proof (addr_base w m3 ltac:(lia) Q2) as B. rewrite Q4, Z.div_mul in B by lia.
      unfold addr in Q4. rewrite <- B in Q4. lia. }
    eapply stays_bind; [apply s_get_word|]. intros x' ? ->.
    eapply stays_bind; [apply s_write_word; try assumption|intros; repeat s1; exact I].
    + rewrite Q5. lia.
    + rewrite P3. unfold addr at 2. cbn [ib ip]. nia.
    + rewrite P3, Q5. unfold addr. cbn [ib ip]. unfold addr in Q3, Q4. cbn [ib ip] in Q3. nia.
Qed.

Lemma shift_left_outside : forall p w first last n m s i, valid_w w -> valid_it w first -> valid_it w last ->
  0 <= addr w last - addr w first <= max_bits ->
  psteps (m, [shift_left p w first last n]) s -> i < addr w first \/ addr w last <= i ->
  bit w (fst s) i = bit w m i.
Proof.
  intros p w first last n m s i Vw V1 V2 H St Hi.
  pose proof (valid_pos w Vw). eapply (stays_steps _ w); [lia|exact St|reflexivity| |exact Hi].
  apply s_shift_left; assumption.
Qed.

(** The bits while copy_backward and transform run. *)
Lemma copy_backward_bits : forall o w m first last d s i, valid_w w -> wf_mem w m ->
  good_range w m first last -> good_dest_end w m d (addr w last - addr w first) ->
  addr w last <= addr w d \/ addr w d <= addr w first ->
  psteps (m, [copy_backward (Hw o) w first last d]) s ->
  bit w (fst s) i = bit w m i \/
  (addr w d - (addr w last - addr w first) <= i < addr w d /\
   bit w (fst s) i = bit w m (addr w last - (addr w d - i))).
Proof.
  intros o w m first last d s i Vw Wf G Gd O H.
  destruct (ProofRange.copy_backward_hw o w m first last d Vw Wf G Gd O) as (d' & m' & E & _ & _ & _ & _ & U).
  destruct G as (V1 & V2 & D & _). destruct Gd as (Vd & _).
  destruct (copy_old_or_new (Hw o) w (fun z => z) (fun z _ => z) first last first d m d' m' Vw V1 V2 Vd D)
    as (_ & _ & K & _).
  destruct (bit_old_or_new w m m' (fst s) i (K E s H)) as [C|C]; [left; exact C|].
  rewrite C, U. unfold inr.
  destruct (Z.leb_spec (addr w d - (addr w last - addr w first)) i), (Z.ltb_spec i (addr w d));
    cbn [andb]; auto.
Qed.

Lemma transform_bits : forall p w op f m first last d s i, valid_w w -> wf_mem w m ->
  good_range w m first last -> good_dest w m d (addr w last - addr w first) ->
  addr w d <= addr w first \/ addr w last <= addr w d ->
  (forall x, 0 <= x < 2 ^ w -> 0 <= op x < 2 ^ w) ->
  (forall x k, 0 <= x < 2 ^ w -> 0 <= k < w -> Z.testbit (op x) k = f (Z.testbit x k)) ->
  psteps (m, [transform1 p w op first last d]) s ->
  bit w (fst s) i = bit w m i \/
  (addr w d <= i < addr w d + (addr w last - addr w first) /\
   bit w (fst s) i = f (bit w m (addr w first + (i - addr w d)))).
Proof.
  intros p w op f m first last d s i Vw Wf G Gd O R B H.
  destruct (ProofTransform.transform1_ok p w op f m first last d Vw Wf G Gd O R B)
    as (d' & m' & E & _ & _ & _ & _ & U).
  destruct G as (V1 & V2 & D & _). destruct Gd as (Vd & _).
  destruct (copy_old_or_new p w op (fun z _ => z) first last first d m d' m' Vw V1 V2 Vd D)
    as (_ & _ & _ & K & _).
  destruct (bit_old_or_new w m m' (fst s) i (K E s H)) as [C|C]; [left; exact C|].
  rewrite C, U. unfold inr.
  destruct (Z.leb_spec (addr w d) i), (Z.ltb_spec i (addr w d + (addr w last - addr w first)));
    cbn [andb]; auto.
Qed.
