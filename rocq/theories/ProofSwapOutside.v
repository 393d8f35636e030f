(** Proofs for C76: bits outside both ranges while swap_ranges runs. *)
From Coq Require Import ZArith Bool List Lia.
From Verif Require Import Base WordOps IterModel PopcntModel Spec ProofBase ProofIter ProofWordOps2
  AlgModel ShiftModel ThreadModel TraceModel SpecCost SpecReads ProofTrace ProofCost ProofCost2
  ProofCost3 ProofWrites ProofOldNew ProofOutside.
Import ListNotations.
Open Scope Z_scope.

(** No write of the thread, run alone, changes a bit that is not in R. *)
Fixpoint keeps {A} (w : Z) (R : Z -> Prop) (t : thread A) (m : mem) (P : A -> mem -> Prop) : Prop :=
  match t with
  | Done (Ok x) => P x m
  | Done _ => True
  | Read a k => match m a with Some x => keeps w R (k x) m P | None => True end
  | Write a v k =>
    match m a with
    | Some x => (forall j, 0 <= j < w -> R (a * w + j) \/ Z.testbit v j = Z.testbit x j) /\
                keeps w R k (mset m a v) P
    | None => True
    end
  end.

Lemma keeps_steps : forall A w R s s', 0 < w -> psteps s s' -> forall m (t : thread A) P, s = (m, [t]) ->
  keeps w R t m P -> forall i, ~ R i -> bit w (fst s') i = bit w m i.
Proof.
  intros A w R s s' W H. induction H as [s|s s1 s2 H H2 IH]; intros m t P -> S i Hi; [reflexivity|].
  destruct (single_step _ _ _ _ H) as [(c & k & x & -> & Em & ->)|(c & v & k & -> & Em & ->)].
  - cbn [keeps] in S. rewrite Em in S. eapply IH; eauto.
  - cbn [keeps] in S. destruct (m c) as [y|] eqn:Ec; [|contradiction]. destruct S as [S1 S2].
    rewrite (IH _ _ _ eq_refl S2 i Hi). unfold bit, mset. destruct (Z.eqb_spec (i / w) c) as [C|C]; [|reflexivity].
    rewrite C, Ec. pose proof (Z.mod_pos_bound i w W). pose proof (Z.div_mod i w ltac:(lia)).
    destruct (S1 (i mod w)) as [D|D]; [lia| |exact D]. exfalso. subst c. apply Hi. replace i with (i / w * w + i mod w) by lia. exact D.
Qed.

Lemma keeps_bind : forall A B w R (t : thread A) (f : A -> thread B) m P Q,
  keeps w R t m P -> (forall x m', P x m' -> keeps w R (f x) m' Q) ->
  keeps w R (tbind t f) m Q.
Proof.
  intros A B w R t f. induction t as [r|d k IH|d v k IH]; intros m P Q H HF; cbn [keeps tbind] in *.
  - destruct r; cbn [keeps]; auto.
  - destruct (m d); [|exact I]. eapply IH; eauto.
  - destruct (m d); [|exact I]. destruct H as [H1 H2]. split; [exact H1|]. eapply IH; eauto.
Qed.

Lemma kb_ret : forall w R A B (x : A) (f : A -> thread B) m Q, keeps w R (f x) m Q -> keeps w R (tbind (ret x) f) m Q.
Proof. intros. exact H. Qed.
Lemma kb_ok : forall w R A B (x : A) (f : A -> thread B) m Q, keeps w R (f x) m Q -> keeps w R (tbind (lift (Ok x)) f) m Q.
Proof. intros. exact H. Qed.
Lemma kb_lift : forall w R A B (r : res A) (f : A -> thread B) m Q, (forall x, r = Ok x -> keeps w R (f x) m Q) ->
  keeps w R (tbind (lift r) f) m Q.
Proof. intros w R A B r f m Q H. destruct r; cbn; auto. Qed.
Lemma kb_load : forall w R B c (f : Z -> thread B) (m : mem) Q, (forall x, m c = Some x -> keeps w R (f x) m Q) ->
  keeps w R (tbind (load c) f) m Q.
Proof. intros w R B c f m Q H. cbn. destruct (m c); auto. Qed.
Lemma kb_store : forall w R B c v (f : unit -> thread B) (m : mem) Q,
  (forall x j, m c = Some x -> 0 <= j < w -> R (c * w + j) \/ Z.testbit v j = Z.testbit x j) ->
  keeps w R (f tt) (mset m c v) Q -> keeps w R (tbind (store c v) f) m Q.
Proof. intros w R B c v f m Q H H0. cbn. destruct (m c) eqn:E; [split; [intros; eauto|exact H0]|exact I]. Qed.
Lemma k_ret : forall w R A (x : A) m (P : A -> mem -> Prop), P x m -> keeps w R (ret x) m P.
Proof. intros. exact H. Qed.
Lemma k_lift : forall w R A (r : res A) m (P : A -> mem -> Prop), (forall x, r = Ok x -> P x m) -> keeps w R (lift r) m P.
Proof. intros w R A r m P H. destruct r; cbn; auto. Qed.
Lemma k_store : forall w R c v (m : mem) (P : unit -> mem -> Prop),
  (forall x j, m c = Some x -> 0 <= j < w -> R (c * w + j) \/ Z.testbit v j = Z.testbit x j) ->
  P tt (mset m c v) -> keeps w R (store c v) m P.
Proof. intros w R c v m P H H0. cbn. destruct (m c) eqn:E; [split; [intros; eauto|exact H0]|exact I]. Qed.
Lemma kb_assoc : forall w R A B C (t : thread A) (f : A -> thread B) (g : B -> thread C) m Q,
  keeps w R (tbind t (fun x => tbind (f x) g)) m Q -> keeps w R (tbind (tbind t f) g) m Q.
Proof.
  intros w R A B C t f g. induction t as [x|c k IH|c v k IH]; intros m Q H; cbn [tbind keeps] in *.
  - destruct x; cbn in *; auto.
  - destruct (m c); [|exact I]. apply IH, H.
  - destruct (m c); [|exact I]. destruct H as [H1 H2]. split; [exact H1|]. apply IH, H2.
Qed.
Ltac k1 :=
  match goal with
  | |- keeps _ _ (tbind (ret _) _) _ _ => apply kb_ret
  | |- keeps _ _ (tbind (lift (Ok _)) _) _ _ => apply kb_ok
  | |- keeps _ _ (tbind (load _) _) _ _ => apply kb_load; intros ? ?
  | |- keeps _ _ (tbind (lift _) _) _ _ => apply kb_lift; intros ? ?
  | |- keeps _ _ (ret _) _ _ => apply k_ret
  | |- keeps _ _ (lift _) _ _ => apply k_lift; intros ? ?
  | |- keeps _ _ (let _ := _ in _) _ _ => cbv zeta
  | |- keeps _ _ (tbind (tbind _ _) _) _ _ => apply kb_assoc
  end.

Lemma cshl_bits : forall p w x c k j, valid_w w -> 0 <= c < w -> cshl p w x c = Ok k -> 0 <= j < w ->
  Z.testbit (wrap w k) j = Z.testbit x (j - c).
Proof.
  intros p w x c k j Vw Hc E Hj. pose proof (prom_ge w Vw). unfold cshl in E.
  destruct (Z.leb_spec 0 c); [|lia]. destruct (Z.ltb_spec c (prom w)); [|lia]. cbn [andb] in E.
  assert (K : k = Z.shiftl x c \/ k = wrap w (Z.shiftl x c)).
  { destruct (w <? 32); [destruct p; [destruct (_ || _); [discriminate|]| |]|]; injection E as <-; auto. }
  unfold wrap in *. rewrite Z.mod_pow2_bits_low by lia.
  destruct K as [-> | ->]; rewrite ?Z.mod_pow2_bits_low by lia; apply Z.shiftl_spec; lia.
Qed.

Lemma low_bits : forall l j, 0 <= l -> j < 0 \/ l <= j -> Z.testbit (2 ^ l - 1) j = false.
Proof.
  intros l j H H1. replace (2 ^ l - 1) with (Z.ones l) by (rewrite Z.ones_equiv; lia).
  destruct (Z.lt_ge_cases j 0); [apply Z.testbit_neg_r; lia|apply Z.ones_spec_high; lia].
Qed.

Lemma k_exch_step : forall p w (R : Z -> Prop) a0 a1 lf d start len m, valid_w w -> 0 <= start < w -> 0 <= len ->
  start + len <= w -> (forall j, start <= j < start + len -> R (a0 * w + j)) ->
  keeps w R (exch_step p w a0 a1 lf d (2 ^ len - 1) start) m anym.
Proof.
  intros p w R a0 a1 lf d start len m Vw H1 H2 H3 HR. unfold exch_step.
  apply kb_load. intros x Ex. apply kb_load. intros y Ey. apply kb_lift. intros s Es. apply kb_lift. intros k Ek.
  apply k_store; [|exact I]. intros x' j Ex' Hj. rewrite Ex in Ex'. injection Ex' as <-.
  assert (C : start <= j < start + len \/ (j < start \/ start + len <= j)) by lia.
  destruct C as [C|C]; [left; auto|right].
  rewrite Z.lxor_spec, Z.land_spec, (cshl_bits p w _ start k j Vw H1 Ek Hj), low_bits by lia.
  rewrite andb_false_r, xorb_false_r. reflexivity.
Qed.

Lemma k_bitexch3 : forall p w (R : Z -> Prop) a0 a1 s0 s1 len m, valid_w w -> 0 <= s0 < w -> 0 <= s1 < w -> 0 <= len ->
  s0 + len <= w -> s1 + len <= w ->
  (forall j, s0 <= j < s0 + len -> R (a0 * w + j)) -> (forall j, s1 <= j < s1 + len -> R (a1 * w + j)) ->
  keeps w R (bitexch3 p w a0 a1 s0 s1 len) m anym.
Proof.
  intros p w R a0 a1 s0 s1 len m Vw H0 H1 L L0 L1 R0 R1. pose proof (valid_pos w Vw) as W. unfold bitexch3.
  apply kb_lift. intros msk Em. assert (E : msk = 2 ^ len - 1).
  { destruct (Z.ltb_spec len w) as [C|C].
    - rewrite cshl_one in Em by (assumption || lia). cbn [rbind] in Em. injection Em as <-.
      apply wrap_small. pose proof (Z.pow_pos_nonneg 2 len). pose proof (Z.pow_lt_mono_r 2 len w). lia.
    - injection Em as <-. replace len with w by lia. unfold wrap.
      replace (-1) with (2 ^ w - 1 + (-1) * 2 ^ w) by lia.
      pose proof (Z.pow_pos_nonneg 2 w). rewrite Z.mod_add, Z.mod_small by lia. reflexivity. }
  subst msk. destruct (s1 <=? s0);
    (eapply keeps_bind; [apply k_exch_step; assumption|intros _ m1 _];
     eapply keeps_bind; [apply k_exch_step; assumption|intros _ m2 _]; apply k_exch_step; assumption).
Qed.

Lemma k_bitexch_mask : forall w (R : Z -> Prop) a0 a1 msk s l m, (forall j, 0 <= j < w -> s <= j < s + l \/ Z.testbit msk j = false) ->
  (forall j, s <= j < s + l -> R (a0 * w + j)) -> (forall j, s <= j < s + l -> R (a1 * w + j)) ->
  keeps w R (bitexch_mask a0 a1 msk) m anym.
Proof.
  intros w R a0 a1 msk s l m M R0 R1.
  assert (K : forall x y (mm : mem) a, (forall j, s <= j < s + l -> R (a * w + j)) -> mm a = Some x ->
    forall x' j, mm a = Some x' -> 0 <= j < w -> R (a * w + j) \/ Z.testbit (Z.lxor x (Z.land y msk)) j = Z.testbit x' j).
  { intros x y mm a Ra E x' j E' Hj. rewrite E in E'. injection E' as <-.
    destruct (M j Hj) as [C|C]; [left; auto|right].
    rewrite Z.lxor_spec, Z.land_spec, C, andb_false_r, xorb_false_r. reflexivity. }
  unfold bitexch_mask.
  do 2 k1. apply kb_store; [eapply K; eassumption|]. do 2 k1. apply kb_store; [eapply K; eassumption|].
  do 2 k1. apply k_store; [eapply K; eassumption|exact I].
Qed.

Lemma k_bitexch2 : forall p w (R : Z -> Prop) a0 a1 s len m, valid_w w -> 0 <= s < w -> 0 <= len -> s + len <= w ->
  (forall j, s <= j < s + len -> R (a0 * w + j)) -> (forall j, s <= j < s + len -> R (a1 * w + j)) ->
  keeps w R (bitexch2 p w a0 a1 s len) m anym.
Proof.
  intros p w R a0 a1 s len m Vw Hs L Ls R0 R1. pose proof (valid_pos w Vw) as W. unfold bitexch2.
  apply kb_lift. intros msk Em. apply k_bitexch_mask with (s := s) (l := len); try assumption.
  intros j Hj. destruct (Z.ltb_spec len w) as [C|C]; [|left; lia].
  rewrite cshl_one in Em by (assumption || lia). cbn [rbind] in Em.
  destruct (cshl p w (arith w (2 ^ len - 1)) s) as [k| | | |] eqn:Ek; try discriminate. injection Em as <-.
  assert (D : s <= j < s + len \/ (j < s \/ s + len <= j)) by lia. destruct D as [D|D]; [left; exact D|right].
  rewrite (cshl_bits p w _ s k j Vw Hs Ek Hj).
  pose proof (Z.pow_pos_nonneg 2 len). pose proof (Z.pow_lt_mono_r 2 len w).
  rewrite arith_small by lia. apply low_bits; lia.
Qed.

(** The bits of the two ranges. *)
Definition either (a b l : Z) (i : Z) : Prop := a <= i < a + l \/ b <= i < b + l.

Lemma k_words_swap : forall w A B l n a b m, 0 < w -> A <= a * w -> (a + Z.of_nat n) * w <= A + l ->
  B <= b * w -> (b + Z.of_nat n) * w <= B + l -> keeps w (either A B l) (words_swap n a b) m anym.
Proof.
  intros w A B l. induction n as [|n IH]; intros a b m W H1 H2 H3 H4; cbn [words_swap]; [k1; exact I|].
  do 2 k1. apply kb_store; [intros; left; left; nia|]. apply kb_store; [intros; left; right; nia|].
  apply IH; nia.
Qed.

Ltac ex3 := apply k_bitexch3; try assumption; try (unfold either; intros); lia || nia.

Lemma k_swap_one_word : forall p w first last first2 m, valid_w w -> valid_it w first -> valid_it w last ->
  valid_it w first2 -> 0 <= addr w last - addr w first <= max_bits -> ib first + b2z (ip last =? 0) = ib last ->
  keeps w (either (addr w first) (addr w first2) (addr w last - addr w first))
    (swap_one_word p w first last first2) m anym.
Proof.
  intros p w first last first2 m Vw V1 V2 V3 H EO. pose proof (valid_pos w Vw) as W. unfold max_bits in H.
  assert (L : ip first + (addr w last - addr w first) <= w).
  { unfold addr, valid_it in *. destruct (Z.eqb_spec (ip last) 0); cbn [b2z] in EO; nia. }
  unfold swap_one_word. cbv zeta. rewrite distance_eq by (assumption || lia). k1.
  set (l := addr w last - addr w first) in *. unfold addr, valid_it in *. clearbody l.
  apply keeps_bind with (P := anym); [|intros; repeat k1; exact I].
  destruct (Z.leb_spec (ip first2) (ip first)) as [C|C]; [ex3|].
  rewrite usub_small by lia.
  destruct (Z.ltb_spec (Z.min l (w - ip first2)) l) as [D|D].
  - assert (w - ip first2 < l) by lia. rewrite Z.min_r by lia. eapply keeps_bind; [ex3|]. intros _ m1 _. rewrite usub_small by lia. ex3.
  - assert (l <= w - ip first2) by lia. rewrite Z.min_l by lia. eapply keeps_bind; [ex3|]. intros _ m1 _. k1. exact I.
Qed.

Lemma k_swap_aligned : forall p w first last first2 m, valid_w w -> valid_it w first -> valid_it w last ->
  ip first = ip first2 -> ib first < ib last ->
  keeps w (either (addr w first) (addr w first2) (addr w last - addr w first))
    (swap_aligned p w first last first2) m anym.
Proof.
  intros p w first last first2 m Vw V1 V2 E H. pose proof (valid_pos w Vw) as W.
  unfold swap_aligned. cbv zeta. unfold addr, valid_it in *. rewrite <- E.
  assert (W1 : (ib first + 1) * w <= ib last * w) by nia.
  rewrite usub_small by lia.
  eapply keeps_bind; [apply k_bitexch2; try assumption; try lia; unfold either; intros; lia|]. intros _ m1 _.
  eapply keeps_bind; [apply k_words_swap; nia|]. intros _ m2 _.
  apply keeps_bind with (P := anym); [|intros; repeat k1; exact I].
  destruct (negb (ip last =? 0)); [|k1; exact I].
  apply k_bitexch2; try assumption; try lia; unfold either; intros; nia.
Qed.

Lemma k_swap_loop : forall p w A B l pos n a b m, valid_w w -> 0 < pos < w -> A <= a * w ->
  (a + Z.of_nat n) * w <= A + l -> B <= b * w + pos -> (b + Z.of_nat n) * w + pos <= B + l ->
  keeps w (either A B l) (swap_loop p w n a b pos (w - pos)) m
    (fun '(x, y) _ => x = a + Z.of_nat n /\ y = b + Z.of_nat n).
Proof.
  intros p w A B l pos. induction n as [|n IH]; intros a b m Vw Hp H1 H2 H3 H4;
    pose proof (valid_pos w Vw) as W; cbn [swap_loop]; [k1; lia|].
  assert (0 <= Z.of_nat n * w) by nia.
  eapply keeps_bind; [apply k_bitexch3; try assumption; try (unfold either; intros); lia || nia|]. intros _ m1 _.
  rewrite usub_small by lia.
  eapply keeps_bind; [apply k_bitexch3; try assumption; try (unfold either; intros); lia || nia|]. intros _ m2 _.
  assert (G := IH (a + 1) (b + 1) m2 Vw Hp ltac:(nia) ltac:(nia) ltac:(nia) ltac:(nia)).
  replace (a + Z.of_nat (S n)) with (a + 1 + Z.of_nat n) by lia.
  replace (b + Z.of_nat (S n)) with (b + 1 + Z.of_nat n) by lia. exact G.
Qed.

Lemma k_swap_unaligned : forall p w first last first2 m, valid_w w -> valid_it w first -> valid_it w last ->
  valid_it w first2 -> ip first <> ip first2 -> ib first < ib last ->
  keeps w (either (addr w first) (addr w first2) (addr w last - addr w first))
    (swap_unaligned p w first last first2) m anym.
Proof.
  intros p w first last first2 m Vw V1 V2 V3 NE H. pose proof (valid_pos w Vw) as W.
  assert (W1 : (ib first + 1) * w <= ib last * w) by nia.
  unfold swap_unaligned. cbv zeta. assert (V1' := V1). assert (V2' := V2). assert (V3' := V3).
  unfold valid_it in V1', V2', V3'. rewrite (usub_small w (ip first)) by lia.
  set (l := addr w last - addr w first). set (A := addr w first). set (B := addr w first2).
  assert (EA : A = ib first * w + ip first) by reflexivity.
  assert (EB : B = ib first2 * w + ip first2) by reflexivity.
  assert (El : A + l = ib last * w + ip last) by (unfold A, l, addr; lia). clearbody A B l.
  apply keeps_bind with (P := fun it2 _ => it2 * w <= B + (w - ip first) < it2 * w + w /\
    B + (w - ip first) <> it2 * w).
  { destruct (Z.ltb_spec (ip first2) (ip first)) as [C|C].
    - eapply keeps_bind; [apply k_bitexch3; try assumption; try (unfold either; intros); lia|]. intros. k1. nia.
    - rewrite usub_small by lia.
      eapply keeps_bind; [apply k_bitexch3; try assumption; try (unfold either; intros); lia|]. intros _ m1 _.
      rewrite usub_small by lia.
      eapply keeps_bind; [apply k_bitexch3; try assumption; try (unfold either; intros); lia|]. intros. k1. nia. }
  intros it2 m1 [I1 I2]. apply kb_lift. intros f2 Ef. unfold advance in Ef.
  destruct (iadd_up w first2 (w - ip first) f2 Vw V3 Ef) as (_ & F1 & F2); [lia|].
  assert (F3 : ib f2 = it2).
  { pose proof (addr_base w f2 ltac:(lia) F1) as Bf. rewrite <- Bf, F2. unfold addr.
    symmetry. apply (Z.div_unique_pos _ w it2 (B + (w - ip first) - it2 * w)); lia. }
  assert (F4 : it2 * w + ip f2 = B + (w - ip first)) by (unfold addr in F2; rewrite F3 in F2; lia).
  rewrite usub_small by lia.
  assert (En : Z.of_nat (Z.to_nat (ib last - (ib first + 1))) = ib last - (ib first + 1)) by lia.
  eapply keeps_bind; [apply k_swap_loop; try assumption; rewrite ?En; nia|].
  intros [x y] m2 [-> ->]. rewrite En.
  assert (Y : (it2 + (ib last - (ib first + 1))) * w + ip f2 = B + l - ip last) by nia.
  set (y := it2 + (ib last - (ib first + 1))) in *. clearbody y.
  destruct (Z.eqb_spec (ip last) 0) as [D|D]; cbn [negb]; [repeat k1; exact I|].
  replace (ib first + 1 + (ib last - (ib first + 1))) with (ib last) by lia.
  destruct (Z.leb_spec (ip last) (w - ip f2)) as [G|G].
  - eapply keeps_bind; [apply k_bitexch3; try assumption; try (unfold either; intros); lia|].
    intros. repeat k1. exact I.
  - eapply keeps_bind; [apply k_bitexch3; try assumption; try (unfold either; intros); lia|]. intros _ m3 _.
    rewrite (usub_small (ip last)) by lia.
    eapply keeps_bind; [apply k_bitexch3; try assumption; try (unfold either; intros); lia|].
    intros. repeat k1. exact I.
Qed.

Lemma swap_ranges_outside : forall p w first last first2 m s i, valid_w w -> valid_it w first ->
  valid_it w last -> valid_it w first2 -> 0 <= addr w last - addr w first <= max_bits ->
  psteps (m, [swap_ranges p w first last first2]) s ->
  (i < addr w first \/ addr w last <= i) ->
  (i < addr w first2 \/ addr w first2 + (addr w last - addr w first) <= i) ->
  bit w (fst s) i = bit w m i.
Proof.
  intros p w first last first2 m s i Vw V1 V2 V3 H St Hi Hi2. pose proof (valid_pos w Vw) as W.
  eapply (keeps_steps _ w (either (addr w first) (addr w first2) (addr w last - addr w first)) _ _ ltac:(lia) St);
    [reflexivity| |unfold either; lia].
  instantiate (1 := anym). unfold swap_ranges, max_bits in *.
  rewrite assert_viable_eq by (assumption || lia). k1.
  destruct (ieq first last) eqn:EI; [k1; exact I|].
  rewrite (ieq_addr w) in EI by (assumption || lia). apply Z.eqb_neq in EI.
  destruct (Z.eqb_spec (ib first + b2z (ip last =? 0)) (ib last)) as [C|C].
  - apply k_swap_one_word; assumption || (unfold max_bits; lia).
  - assert (B : ib first < ib last).
    { pose proof (base_lt w first last Vw V1 V2 ltac:(lia)). destruct (Z.eqb_spec (ip last) 0) as [D|D]; cbn [b2z] in C; [|lia].
      destruct (Z.eq_dec (ib first) (ib last)) as [E|E]; [|lia]. exfalso. unfold addr, valid_it in *. rewrite E in *. lia. }
    destruct (Z.eqb_spec (ip first) (ip first2)); [apply k_swap_aligned|apply k_swap_unaligned]; assumption.
Qed.
