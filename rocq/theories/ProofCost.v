(** Bounds on the accesses of the algorithms. *)
From Coq Require Import ZArith Bool List Lia.
From Verif Require Import Base WordOps IterModel PopcntModel Spec ProofBase ProofIter
  AlgModel ShiftModel ReverseModel ThreadModel TraceModel SpecCost.
Import ListNotations.
Open Scope Z_scope.

(** The thread makes at most [r] reads and [n] writes, and what it returns meets [P]. *)
Fixpoint within {A} (t : thread A) (r n : Z) (P : A -> Prop) : Prop :=
  match t with
  | Done (Ok a) => 0 <= r /\ 0 <= n /\ P a
  | Done _ => 0 <= r /\ 0 <= n
  | Read _ k => forall x, within (k x) (r - 1) n P
  | Write _ _ k => within k r (n - 1) P
  end.

Lemma within_nonneg : forall A (t : thread A) r n P, within t r n P -> 0 <= r /\ 0 <= n.
Proof.
  intros A t. induction t as [x|a k IH|a v k IH]; intros r n P H; cbn [within] in H.
  - destruct x; tauto.
  - destruct (IH 0 (r - 1) n P (H 0)). lia.
  - destruct (IH r (n - 1) P H). lia.
Qed.

Lemma within_mono : forall A (t : thread A) r n (P : A -> Prop) r' n' (Q : A -> Prop),
  within t r n P -> r <= r' -> n <= n' -> (forall a, P a -> Q a) -> within t r' n' Q.
Proof.
  intros A t. induction t as [x|a k IH|a v k IH]; intros r n P r' n' Q H Hr Hn HPQ;
    cbn [within] in *.
  - destruct x; try lia. destruct H as [H1 [H2 H3]]. split; [lia|split; [lia|auto]].
  - intros x. apply (IH x (r - 1) n P); auto; lia.
  - apply (IH r (n - 1) P); auto; lia.
Qed.

Lemma within_bind : forall A B (t : thread A) (f : A -> thread B) r1 n1 (P : A -> Prop) r n Q,
  within t r1 n1 P -> r1 <= r -> n1 <= n ->
  (forall a, P a -> within (f a) (r - r1) (n - n1) Q) -> within (tbind t f) r n Q.
Proof.
  intros A B t f. induction t as [x|a k IH|a v k IH]; intros r1 n1 P r n Q H Hr Hn HF;
    cbn [within tbind] in *.
  - destruct x as [a| | | |]; cbn [within]; try lia. destruct H as [H1 [H2 H3]].
    apply (within_mono _ _ (r - r1) (n - n1) Q); auto; lia.
  - intros x. apply (IH x (r1 - 1) n1 P); auto; try lia. intros b Hb.
    replace (r - 1 - (r1 - 1)) with (r - r1) by lia. auto.
  - apply (IH r1 (n1 - 1) P); auto; try lia. intros b Hb.
    replace (n - 1 - (n1 - 1)) with (n - n1) by lia. auto.
Qed.

Lemma within_at_most : forall A (t : thread A) r n P, within t r n P -> at_most t r n.
Proof.
  intros A t. induction t as [x|a k IH|a v k IH]; intros r n P H m;
    pose proof (within_nonneg _ _ _ _ _ H) as H0; cbn [reads writes].
  - lia.
  - cbn [within] in H. destruct (m a) as [x|]; [|lia].
    destruct (IH x (r - 1) n P (H x) m). lia.
  - cbn [within] in H. destruct (m a) as [x|]; [|lia].
    destruct (IH r (n - 1) P H (mset m a v)). lia.
Qed.

Lemma w_ret : forall A (a : A) r n (P : A -> Prop), 0 <= r -> 0 <= n -> P a -> within (ret a) r n P.
Proof. intros. cbn. auto. Qed.

Lemma w_lift : forall A (x : res A) r n (P : A -> Prop), 0 <= r -> 0 <= n ->
  (forall a, x = Ok a -> P a) -> within (lift x) r n P.
Proof. intros A x r n P Hr Hn H. destruct x; cbn; auto. Qed.

Lemma wb_ret : forall A B (a : A) (f : A -> thread B) r n Q,
  within (f a) r n Q -> within (tbind (ret a) f) r n Q.
Proof. intros. exact H. Qed.

Lemma wb_ok : forall A B (a : A) (f : A -> thread B) r n Q,
  within (f a) r n Q -> within (tbind (lift (Ok a)) f) r n Q.
Proof. intros. exact H. Qed.

Lemma wb_lift : forall A B (x : res A) (f : A -> thread B) r n Q, 0 <= r -> 0 <= n ->
  (forall a, x = Ok a -> within (f a) r n Q) -> within (tbind (lift x) f) r n Q.
Proof. intros A B x f r n Q Hr Hn H. destruct x; cbn; auto. Qed.

Lemma wb_load : forall B a (f : Z -> thread B) r n Q,
  (forall x, within (f x) (r - 1) n Q) -> within (tbind (load a) f) r n Q.
Proof. intros. exact H. Qed.

Lemma wb_store : forall B a v (f : unit -> thread B) r n Q,
  within (f tt) r (n - 1) Q -> within (tbind (store a v) f) r n Q.
Proof. intros. exact H. Qed.

Lemma wb_assoc : forall A B C (t : thread A) (f : A -> thread B) (g : B -> thread C) r n Q,
  within (tbind t (fun a => tbind (f a) g)) r n Q -> within (tbind (tbind t f) g) r n Q.
Proof.
  intros A B C t f g. induction t as [x|a k IH|a v k IH]; intros r n Q H; cbn [tbind within] in *.
  - destruct x; exact H.
  - intros x. apply IH, H.
  - apply IH, H.
Qed.

Lemma w_store : forall a v r n (P : unit -> Prop), 0 <= r -> 1 <= n -> P tt ->
  within (store a v) r n P.
Proof. intros. cbn. split; [lia|split; [lia|assumption]]. Qed.

(** Steps that need no thought: the budget is checked when it is spent. *)
Ltac w1 :=
  match goal with
  | |- within (tbind (ret _) _) _ _ _ => apply wb_ret
  | |- within (tbind (lift (Ok _)) _) _ _ _ => apply wb_ok
  | |- within (tbind (load _) _) _ _ _ => apply wb_load; intro
  | |- within (tbind (store _ _) _) _ _ _ => apply wb_store
  | |- within (tbind (lift _) _) _ _ _ => apply wb_lift; [lia|lia|intros ? ?]
  | |- within (ret _) _ _ _ => apply w_ret; [lia|lia|]
  | |- within (lift _) _ _ _ => apply w_lift; [lia|lia|intros ? ?]
  | |- within (store _ _) _ _ _ => apply w_store; [lia|lia|]
  | |- within (let _ := _ in _) _ _ _ => cbv zeta
  | |- within (if ?b then _ else _) _ _ _ => destruct b eqn:?
  | |- within (tbind (tbind _ _) _) _ _ _ => apply wb_assoc
  end.
Ltac ws := repeat w1; auto.
(** A value that does not depend on memory. *)
Ltac wl f Hf := apply wb_lift; [lia|lia|]; intros f Hf.
(** Sequencing with the bound [L] of the first part. *)
Ltac wb L := eapply within_bind; [apply L|lia|lia|].

Definition any {A} (a : A) : Prop := True.
Lemma any_i : forall A (a : A), any a. Proof. intros; exact I. Qed.
#[export] Hint Resolve any_i : core.

Lemma c_get_word : forall p w it len, within (get_word p w it len) 2 0 any.
Proof. intros. unfold get_word. ws. Qed.

Lemma c_write_word : forall p w v it len, within (write_word p w v it len) 2 2 any.
Proof. intros. unfold write_word. ws. Qed.

Lemma c_write_word1 : forall p w v it len, len <= w - ip it ->
  within (write_word p w v it len) 1 1 any.
Proof. intros. unfold write_word. ws; lia. Qed.

Lemma c_words_copy : forall n a b, within (words_copy n a b) (Z.of_nat n) (Z.of_nat n) any.
Proof.
  induction n as [|n IH]; intros; cbn [words_copy]; ws.
  eapply within_mono; [apply IH|lia|lia|auto].
Qed.

Lemma c_words_copy_backward : forall n a b,
  within (words_copy_backward n a b) (Z.of_nat n) (Z.of_nat n) any.
Proof.
  induction n as [|n IH]; intros; cbn [words_copy_backward]; ws.
  eapply within_mono; [apply IH|lia|lia|auto].
Qed.

Lemma c_words_fill : forall n a b, within (words_fill n a b) 0 (Z.of_nat n) any.
Proof.
  induction n as [|n IH]; intros; cbn [words_fill]; ws.
  eapply within_mono; [apply IH|lia|lia|auto].
Qed.

Lemma c_words_equal : forall n a b, within (words_equal n a b) (2 * Z.of_nat n) 0 any.
Proof.
  induction n as [|n IH]; intros; cbn [words_equal]; ws.
  eapply within_mono; [apply IH|lia|lia|auto].
Qed.

Lemma c_words_find : forall n a b, within (words_find n a b) (Z.of_nat n) 0 any.
Proof.
  induction n as [|n IH]; intros; cbn [words_find]; ws.
  eapply within_mono; [apply IH|lia|lia|auto].
Qed.

Lemma c_words_transform : forall op n a b,
  within (words_transform op n a b) (Z.of_nat n) (Z.of_nat n) any.
Proof.
  intros op. induction n as [|n IH]; intros; cbn [words_transform]; ws.
  eapply within_mono; [apply IH|lia|lia|auto].
Qed.

Lemma c_words_transform2 : forall op n a b c,
  within (words_transform2 op n a b c) (2 * Z.of_nat n) (Z.of_nat n) any.
Proof.
  intros op. induction n as [|n IH]; intros; cbn [words_transform2]; ws.
  eapply within_mono; [apply IH|lia|lia|auto].
Qed.

Lemma c_words_swap : forall n a b,
  within (words_swap n a b) (2 * Z.of_nat n) (2 * Z.of_nat n) any.
Proof.
  induction n as [|n IH]; intros; cbn [words_swap]; ws.
  eapply within_mono; [apply IH|lia|lia|auto].
Qed.

Lemma c_words_reverse_loop : forall n a b,
  within (words_reverse_loop n a b) (2 * Z.of_nat n) (2 * Z.of_nat n) any.
Proof.
  induction n as [|n IH]; intros; cbn [words_reverse_loop]; ws.
  eapply within_mono; [apply IH|lia|lia|auto].
Qed.

Lemma c_words_bitswap : forall p w n a,
  within (words_bitswap p w n a) (Z.of_nat n) (Z.of_nat n) any.
Proof.
  intros p w. induction n as [|n IH]; intros; cbn [words_bitswap]; ws.
  eapply within_mono; [apply IH|lia|lia|auto].
Qed.

Lemma c_bitexch2 : forall p w a b s l, within (bitexch2 p w a b s l) 6 3 any.
Proof. intros. unfold bitexch2, bitexch_mask. ws. Qed.

Lemma c_exch_step : forall p w a b l d k s, within (exch_step p w a b l d k s) 2 1 any.
Proof. intros. unfold exch_step. ws. Qed.

Lemma c_bitexch3 : forall p w a b s t l, within (bitexch3 p w a b s t l) 6 3 any.
Proof.
  intros. unfold bitexch3. ws;
    (wb c_exch_step; intros; wb c_exch_step; intros;
     eapply within_mono; [apply c_exch_step|lia|lia|auto]).
Qed.

(** Numbers of words. *)
Lemma words_of_nonneg : forall w A B, 0 < w -> 0 <= words_of w A B.
Proof.
  intros w A B Hw. unfold words_of. destruct (Z.ltb_spec A B); [|lia].
  assert (A / w <= (B - 1) / w) by (apply Z.div_le_mono; lia). lia.
Qed.

(** In terms of the words and positions of two iterators. *)
Lemma words_of_it : forall w a b, 0 < w -> valid_it w a -> valid_it w b ->
  addr w a < addr w b ->
  words_of w (addr w a) (addr w b) = ib b - ib a + (if ip b =? 0 then 0 else 1).
Proof.
  intros w a b Hw Ha Hb H. unfold words_of. destruct (Z.ltb_spec (addr w a) (addr w b)); [|lia].
  rewrite (addr_base w a) by assumption. unfold addr, valid_it in *.
  destruct (Z.eqb_spec (ip b) 0).
  - replace (ib b * w + ip b - 1) with ((ib b - 1) * w + (w - 1)) by lia.
    rewrite Z.div_add_l by lia. rewrite (Z.div_small (w - 1)) by lia. lia.
  - replace (ib b * w + ip b - 1) with (ib b * w + (ip b - 1)) by lia.
    rewrite Z.div_add_l by lia. rewrite (Z.div_small (ip b - 1)) by lia. lia.
Qed.


Lemma words_of_same : forall w A B, B <= A -> words_of w A B = 0.
Proof. intros w A B H. unfold words_of. destruct (Z.ltb_spec A B); [lia|reflexivity]. Qed.

(** What the budget of a range is, for lia. *)
Ltac count_words w first last :=
  rewrite (words_of_it w first last) by (assumption || lia);
  let E := fresh "E" in destruct (Z.eqb_spec (ip last) 0) as [E|E].

Lemma c_fill : forall p w first last b, valid_w w -> valid_it w first -> valid_it w last ->
  0 <= addr w last - addr w first <= max_bits ->
  within (fill p w first last b) 2 (words_of w (addr w first) (addr w last)) any.
Proof.
  intros p w first last b Vw V1 V2 H. pose proof (valid_pos w Vw) as W.
  pose proof (words_of_nonneg w (addr w first) (addr w last) ltac:(lia)) as T0.
  unfold fill, max_bits in *. cbv zeta.
  rewrite assert_viable_eq, distance_eq, is_within_eq by (assumption || lia).
  w1. w1. destruct (Z.eqb_spec (addr w last - addr w first) 0) as [C0|C0]; [ws|].
  w1. revert T0. rewrite (words_of_it w first last) by (assumption || lia). intros T0.
  unfold addr, valid_it in *.
  destruct (Z.leb_spec (ib last * w + ip last - (ib first * w + ip first)) w) as [C1|C1].
  - w1. destruct (Z.leb_spec (ib last * w + ip last - (ib first * w + ip first)) (w - ip first)) as [C2|C2].
    + eapply within_mono; [apply c_write_word1; lia|lia| |auto]. destruct (Z.eqb_spec (ip last) 0); nia.
    + eapply within_mono; [apply c_write_word|lia| |auto]. destruct (Z.eqb_spec (ip last) 0); nia.
  - assert (ib first < ib last) by nia.
    apply within_bind with (r1 := 1) (n1 := if ip first =? 0 then 0 else 1)
      (P := fun it => it = ib first + (if ip first =? 0 then 0 else 1)).
    + destruct (Z.eqb_spec (ip first) 0) as [C2|C2]; cbn [negb]; [ws; lia|].
      eapply within_bind; [apply c_write_word1; lia|lia|lia|]. intros _ _. ws; lia.
    + lia.
    + destruct (Z.eqb_spec (ip first) 0), (Z.eqb_spec (ip last) 0); lia.
    + intros it ->. eapply within_bind; [apply c_words_fill|lia| |].
      * destruct (Z.eqb_spec (ip first) 0), (Z.eqb_spec (ip last) 0); lia.
      * intros _ _. destruct (Z.eqb_spec (ip first) 0), (Z.eqb_spec (ip last) 0); cbn [negb];
          ws; try lia; (eapply within_mono; [apply c_write_word1; cbn; lia|lia|lia|auto]).
Qed.

Lemma c_find : forall p w first last b, valid_w w -> valid_it w first -> valid_it w last ->
  0 <= addr w last - addr w first <= max_bits ->
  within (find p w first last b) (words_of w (addr w first) (addr w last) + 1) 0 any.
Proof.
  intros p w first last b Vw V1 V2 H. pose proof (valid_pos w Vw) as W.
  pose proof (words_of_nonneg w (addr w first) (addr w last) ltac:(lia)) as T0.
  unfold find, max_bits in *. cbv zeta.
  destruct (Z.eqb_spec (addr w last) (addr w first)) as [C0|C0].
  { assert (ib first = ib last /\ ip first = ip last) as [E1 E2].
    { pose proof (addr_base w first ltac:(lia) V1) as B1.
      pose proof (addr_base w last ltac:(lia) V2) as B2.
      rewrite C0 in B2. assert (E : ib first = ib last) by congruence.
      split; [exact E|]. unfold addr in C0. rewrite E in C0. lia. }
    destruct (Z.eqb_spec (ip first) 0) as [C1|C1]; cbn [negb].
    - w1. rewrite E1, Z.sub_diag. change (Z.to_nat 0) with 0%nat. cbn [words_find]. w1.
      replace (ip last =? 0) with true by lia. rewrite Z.eqb_refl. cbn [negb]. ws.
    - replace (ip last =? 0) with false by lia. cbn [b2z negb].
      rewrite Z.add_0_r, <- E1, Z.eqb_refl. ws. }
  revert T0. rewrite (words_of_it w first last) by (assumption || lia). intros T0.
  unfold addr in *. unfold valid_it in V1, V2. assert (ib first <= ib last) by nia.
  assert (ip last = 0 -> ib first < ib last) by nia.
  apply within_bind with (r1 := if ip first =? 0 then 0 else 1) (n1 := 0)
    (P := fun s => match s with inl _ => True | Datatypes.inr f =>
       ib f = ib first + (if ip first =? 0 then 0 else 1) /\
       ib f <= ib last end).
  - destruct (Z.eqb_spec (ip first) 0) as [C1|C1]; cbn [negb].
    + ws; lia.
    + w1. w1. destruct (Z.eqb_spec (ib first + b2z (ip last =? 0)) (ib last)) as [C2|C2]; [ws|].
      destruct (tz_bv w b (wrap w a) + ip first <? w); [ws|].
      wl f Hf. w1. unfold usub in Hf.
      rewrite wrap_small in Hf by (change (2 ^ 64) with 18446744073709551616; lia).
      rewrite iadd_eq in Hf by (assumption || lia). injection Hf as <-. cbn [ib].
      replace (ip first + (w - ip first)) with (1 * w) by lia. rewrite Z.div_mul by lia.
      unfold b2z in C2. destruct (Z.eqb_spec (ip last) 0); split; lia.
  - destruct (Z.eqb_spec (ip first) 0), (Z.eqb_spec (ip last) 0); lia.
  - lia.
  - intros [r|f] Hs; [destruct (Z.eqb_spec (ip first) 0), (Z.eqb_spec (ip last) 0); ws|].
    destruct Hs as [F1 F2].
    eapply within_bind; [apply c_words_find| |lia|].
    + destruct (Z.eqb_spec (ip first) 0), (Z.eqb_spec (ip last) 0); lia.
    + intros it _. destruct (Z.eqb_spec (ip first) 0), (Z.eqb_spec (ip last) 0); ws; lia.
Qed.

(** The words of a destination: the one begun in the middle, whole ones, and a rest. *)
Definition rest_of (w : Z) (d : iter) (N : Z) : Z :=
  if ip d =? 0 then N else N - Z.min N (w - ip d).

Lemma words_split : forall w d N, 0 < w -> valid_it w d -> 0 < N ->
  words_of w (addr w d) (addr w d + N) =
    (if ip d =? 0 then 0 else 1) + rest_of w d N / w + (if rest_of w d N mod w =? 0 then 0 else 1).
Proof.
  intros w d N Hw Hd HN. set (e := It ((addr w d + N) / w) ((addr w d + N) mod w)).
  assert (Ve : valid_it w e) by (unfold e, valid_it; cbn; apply Z.mod_pos_bound; lia).
  assert (Ae : addr w e = addr w d + N).
  { unfold e, addr; cbn [ib ip]. pose proof (Z.div_mod (ib d * w + ip d + N) w ltac:(lia)). lia. }
  rewrite <- Ae, words_of_it by (assumption || lia). unfold rest_of, valid_it in *.
  clearbody e. unfold addr in *.
  destruct (Z.eqb_spec (ip d) 0) as [C|C].
  - rewrite <- (Z.div_unique N w (ib e - ib d) (ip e)) by lia.
    rewrite <- (Z.mod_unique N w (ib e - ib d) (ip e)) by lia. lia.
  - destruct (Z.leb_spec N (w - ip d)) as [C1|C1].
    + rewrite Z.min_l, Z.sub_diag by lia. rewrite Z.div_0_l, Z.mod_0_l by lia. cbn [Z.eqb].
      destruct (Z.eqb_spec (ip e) 0); nia.
    + rewrite Z.min_r by lia.
      rewrite <- (Z.div_unique (N - (w - ip d)) w (ib e - ib d - 1) (ip e)) by lia.
      rewrite <- (Z.mod_unique (N - (w - ip d)) w (ib e - ib d - 1) (ip e)) by lia. lia.
Qed.

Lemma rest_bound : forall w d N, valid_it w d -> 0 <= N -> 0 <= rest_of w d N <= N.
Proof. intros w d N Hd HN. unfold rest_of, valid_it in *. destruct (ip d =? 0); lia. Qed.

(** Whole words in an aligned source. *)
Lemma whole_words : forall w f last R, valid_w w -> valid_it w last -> ip f = 0 ->
  addr w last = addr w f + R -> ib last - ib f = R / w /\ usub R (w * (ib last - ib f)) = R mod w.
Proof.
  intros w f last R Vw Hl Hf H. pose proof (valid_pos w Vw). unfold addr, valid_it in *.
  assert (E : ib last - ib f = R / w) by (apply Z.div_unique with (ip last); lia).
  split; [exact E|]. rewrite E. unfold usub. replace (R - w * (R / w)) with (R mod w).
  - apply wrap_small. pose proof (Z.mod_pos_bound R w). lia.
  - pose proof (Z.div_mod R w). lia.
Qed.

Lemma usub_small : forall a b, 0 <= a - b < 2 ^ 64 -> usub a b = a - b.
Proof. intros a b H. unfold usub. apply wrap_small. exact H. Qed.

Lemma c_copy_loop : forall p w, valid_w w -> forall n R it first, 0 <= R < 2 ^ 63 ->
  Z.of_nat n = R / w ->
  within (copy_loop p w n it first R) (2 * Z.of_nat n) (Z.of_nat n)
    (fun '(_, _, r) => r = R mod w).
Proof.
  intros p w Vw. pose proof (valid_pos w Vw) as W.
  induction n as [|n IH]; intros R it first HR Hn; cbn [copy_loop].
  - destruct (Z.leb_spec w R).
    + pose proof (Z.div_le_lower_bound R w 1). lia.
    + w1. rewrite Z.mod_small by lia. reflexivity.
  - destruct (Z.leb_spec w R).
    + wb c_get_word. intros x _. do 2 w1. rewrite usub_small by lia.
      eapply within_mono; [apply IH|lia|lia|].
      * lia.
      * replace (R - w) with (R + (-1) * w) by lia. rewrite Z.div_add by lia. lia.
      * intros [[? ?] ?] ->. replace (R - w) with (R + (-1) * w) by lia.
        rewrite Z.mod_add by lia. reflexivity.
    + rewrite Z.div_small in Hn by lia. lia.
Qed.

Lemma c_copy : forall p w first last d, valid_w w -> valid_it w first -> valid_it w last ->
  valid_it w d -> 0 <= addr w last - addr w first <= max_bits ->
  let T := words_of w (addr w d) (addr w d + (addr w last - addr w first)) in
  within (copy p w first last d) (3 * T) T any.
Proof.
  intros p w first last d Vw V1 V2 Vd H T. pose proof (valid_pos w Vw) as W.
  pose proof (words_of_nonneg w (addr w d) (addr w d + (addr w last - addr w first)) ltac:(lia)) as T0.
  unfold copy, max_bits in *. cbv zeta.
  rewrite assert_viable_eq, distance_eq by (assumption || lia). w1.
  rewrite (ieq_addr w) by (assumption || lia).
  destruct (Z.eqb_spec (addr w first) (addr w last)) as [C0|C0]; [ws|]. w1.
  set (N := addr w last - addr w first) in *. subst T.
  revert T0. rewrite words_split by (assumption || lia). intros T0.
  pose proof (rest_bound w d N Vd ltac:(lia)) as RB.
  set (R := rest_of w d N) in *.
  assert (0 <= R / w) by (apply Z.div_pos; lia).
  apply within_bind with (r1 := if ip d =? 0 then 0 else 3) (n1 := if ip d =? 0 then 0 else 1)
    (P := fun '(r, f, _) => r = R /\ addr w last = addr w f + R).
  - unfold R, rest_of. destruct (Z.eqb_spec (ip d) 0) as [C1|C1]; cbn [negb].
    + w1. split; [reflexivity|]. unfold N. lia.
    + w1. wb c_get_word. intros g _. unfold valid_it in Vd.
      rewrite (usub_small w) by lia. do 3 w1. wl f Hf. w1. unfold advance in *.
      edestruct (iadd_exact w first (Z.min N (w - ip d)) Vw V1) as [f' [F1 [F2 F3]]].
      { unfold valid_it in V1. lia. }
      rewrite F1 in Hf. injection Hf as <-. rewrite usub_small by lia. rewrite F3.
      split; unfold N; lia.
  - destruct (ip d =? 0), (R mod w =? 0); lia.
  - destruct (ip d =? 0), (R mod w =? 0); lia.
  - intros [[r f] it] [-> F].
    destruct (Z.ltb_spec 0 R) as [C1|C1].
    2:{ destruct (ip d =? 0), (R mod w =? 0); ws. }
    eapply within_bind with (r1 := _) (n1 := _) (P := any).
    + apply within_bind with (r1 := 2 * (R / w)) (n1 := R / w) (P := fun '(_, _, r) => r = R mod w).
      * destruct ((ip f =? 0) && (w <? R)) eqn:C2.
        -- destruct (whole_words w f last R Vw V2 ltac:(lia) F) as [E1 E2]. cbv zeta.
           rewrite E2, E1.
           eapply within_bind; [apply c_words_copy|lia|lia|]. intros _ _. do 2 w1. reflexivity.
        -- eapply within_mono; [apply c_copy_loop; [assumption|lia|lia]|lia|lia|auto].
      * instantiate (1 := 2 * (R / w) + (if R mod w =? 0 then 0 else 3)).
        destruct (R mod w =? 0); lia.
      * instantiate (1 := R / w + (if R mod w =? 0 then 0 else 1)).
        destruct (R mod w =? 0); lia.
      * intros [[it' f'] r'] ->.
        destruct (Z.ltb_spec 0 (R mod w)) as [C2|C2].
        -- replace (R mod w =? 0) with false by lia. w1. wb c_get_word. intros g _. ws.
        -- destruct (R mod w =? 0); ws.
    + destruct (ip d =? 0), (R mod w =? 0); lia.
    + destruct (ip d =? 0), (R mod w =? 0); lia.
    + intros _ _. destruct (ip d =? 0), (R mod w =? 0); ws.
Qed.

Lemma c_equal_loop : forall p w, valid_w w -> forall n R it first, 0 <= R < 2 ^ 63 ->
  Z.of_nat n = R / w ->
  within (equal_loop p w n it first R) (3 * Z.of_nat n) 0
    (fun '(bad, _, _, r) => (bad : bool) = true \/ r = R mod w).
Proof.
  intros p w Vw. pose proof (valid_pos w Vw) as W.
  induction n as [|n IH]; intros R it first HR Hn; cbn [equal_loop].
  - destruct (Z.leb_spec w R).
    + pose proof (Z.div_le_lower_bound R w 1). lia.
    + w1. rewrite Z.mod_small by lia. auto.
  - destruct (Z.leb_spec w R).
    + w1. wb c_get_word. intros y _. destruct (negb (x =? y)); [ws|]. w1. rewrite usub_small by lia.
      eapply within_mono; [apply IH|lia|lia|].
      * lia.
      * replace (R - w) with (R + (-1) * w) by lia. rewrite Z.div_add by lia. lia.
      * intros [[[? ?] ?] ?]. replace (R - w) with (R + (-1) * w) by lia.
        rewrite Z.mod_add by lia. auto.
    + rewrite Z.div_small in Hn by lia. lia.
Qed.

Lemma c_equal_tail : forall p w it first R,
  within (equal_tail p w it first R) (if 0 <? R then 3 else 0) 0 any.
Proof.
  intros. unfold equal_tail. destruct (0 <? R); [|ws]. w1. wb c_get_word. intros x _. ws.
Qed.

(** The end of the first part of equal, copy and transform. *)
Lemma after_part : forall w first last d N f, valid_w w -> valid_it w first -> valid_it w d ->
  N = addr w last - addr w first -> 0 <= N <= 2 ^ 62 -> ip d <> 0 ->
  iadd w first (Z.min N (w - ip d)) = Ok f ->
  usub N (Z.min N (w - ip d)) = rest_of w d N /\ addr w last = addr w f + rest_of w d N /\
  valid_it w f.
Proof.
  intros w first last d N f Vw V1 Vd EN HN C Hf. pose proof (valid_pos w Vw).
  destruct (iadd_exact w first (Z.min N (w - ip d)) Vw V1) as [f' [F1 [F2 F3]]].
  { unfold valid_it in *. lia. }
  rewrite F1 in Hf. injection Hf as <-. unfold rest_of, valid_it in *.
  destruct (Z.eqb_spec (ip d) 0); [lia|]. rewrite usub_small by lia. lia.
Qed.

Lemma c_equal : forall p w first last d, valid_w w -> valid_it w first -> valid_it w last ->
  valid_it w d -> 0 <= addr w last - addr w first <= max_bits ->
  let T := words_of w (addr w d) (addr w d + (addr w last - addr w first)) in
  within (equal p w first last d) (3 * T) 0 any.
Proof.
  intros p w first last d Vw V1 V2 Vd H T. pose proof (valid_pos w Vw) as W.
  pose proof (words_of_nonneg w (addr w d) (addr w d + (addr w last - addr w first)) ltac:(lia)) as T0.
  unfold equal, max_bits in *. cbv zeta.
  rewrite assert_viable_eq, distance_eq by (assumption || lia). w1.
  rewrite (ieq_addr w) by (assumption || lia).
  destruct (Z.eqb_spec (addr w first) (addr w last)) as [C0|C0]; [ws|]. w1.
  set (N := addr w last - addr w first) in *. subst T.
  revert T0. rewrite words_split by (assumption || lia). intros T0.
  pose proof (rest_bound w d N Vd ltac:(lia)) as RB.
  set (R := rest_of w d N) in *.
  assert (0 <= R / w) by (apply Z.div_pos; lia).
  apply within_bind with (r1 := if ip d =? 0 then 0 else 3) (n1 := 0)
    (P := fun s => match s with None => True | Some (r, f, _) =>
                     r = R /\ addr w last = addr w f + R end).
  - unfold R. destruct (Z.eqb_spec (ip d) 0) as [C1|C1]; cbn [negb].
    + w1. unfold rest_of. rewrite (proj2 (Z.eqb_eq (ip d) 0) C1). split; [reflexivity|]. unfold N. lia.
    + do 2 w1. wb c_get_word. intros g _. do 2 w1.
      destruct (negb _); [ws|].
      assert (usub w (ip d) = w - ip d) as -> by (unfold valid_it in Vd; rewrite usub_small by lia; lia).
      wl f Hf. w1.
      destruct (after_part w first last d N f Vw V1 Vd eq_refl ltac:(lia) C1 Hf) as [F1 [F2 F3]]. auto.
  - destruct (ip d =? 0), (R mod w =? 0); lia.
  - lia.
  - intros [[[r f] it]|] F; [destruct F as [-> F]|destruct (ip d =? 0), (R mod w =? 0); ws].
    destruct (Z.ltb_spec 0 R) as [C1|C1].
    2:{ destruct (ip d =? 0), (R mod w =? 0); ws. }
    assert (TL : forall a b r, r = R mod w ->
      within (equal_tail p w a b r) (3 * (R / w + (if R mod w =? 0 then 0 else 1)) - 3 * (R / w)) 0 any).
    { intros a b r ->. eapply within_mono; [apply c_equal_tail| |lia|auto].
      pose proof (Z.mod_pos_bound R w). destruct (Z.ltb_spec 0 (R mod w)), (Z.eqb_spec (R mod w) 0); lia. }
    apply within_mono with (r := 3 * (R / w + (if R mod w =? 0 then 0 else 1))) (n := 0) (P := any);
      [|destruct (ip d =? 0); lia|lia|auto].
    destruct ((ip f =? 0) && (w <=? R)) eqn:C2.
    + destruct (whole_words w f last R Vw V2 ltac:(lia) F) as [E1 E2]. cbv zeta.
      rewrite E2, E1.
      eapply within_bind; [apply c_words_equal|destruct (R mod w =? 0); lia|lia|]. intros same _.
      destruct same; cbn [negb]; [|destruct (R mod w =? 0); ws].
      apply wb_lift; [destruct (R mod w =? 0); lia|lia|]. intros f' _.
      eapply within_mono; [apply TL; reflexivity|lia|lia|auto].
    + eapply within_bind; [apply c_equal_loop; [assumption|lia|lia]|destruct (R mod w =? 0); lia|lia|].
      intros [[[bad it'] f'] r'] HB. destruct bad; [destruct (R mod w =? 0); ws|].
      destruct HB as [HB|HB]; [discriminate|].
      eapply within_mono; [apply TL; exact HB|lia|lia|auto].
Qed.

Lemma c_transform_loop : forall p w op, valid_w w -> forall n R it first, 0 <= R < 2 ^ 63 ->
  Z.of_nat n = R / w ->
  within (transform_loop p w op n it first R) (2 * Z.of_nat n) (Z.of_nat n)
    (fun '(_, _, r) => r = R mod w).
Proof.
  intros p w op Vw. pose proof (valid_pos w Vw) as W.
  induction n as [|n IH]; intros R it first HR Hn; cbn [transform_loop].
  - destruct (Z.leb_spec w R).
    + pose proof (Z.div_le_lower_bound R w 1). lia.
    + w1. rewrite Z.mod_small by lia. reflexivity.
  - destruct (Z.leb_spec w R).
    + wb c_get_word. intros x _. do 2 w1. rewrite usub_small by lia.
      eapply within_mono; [apply IH|lia|lia|].
      * lia.
      * replace (R - w) with (R + (-1) * w) by lia. rewrite Z.div_add by lia. lia.
      * intros [[? ?] ?] ->. replace (R - w) with (R + (-1) * w) by lia.
        rewrite Z.mod_add by lia. reflexivity.
    + rewrite Z.div_small in Hn by lia. lia.
Qed.

Lemma c_transform1 : forall p w op first last d, valid_w w -> valid_it w first ->
  valid_it w last -> valid_it w d -> 0 <= addr w last - addr w first <= max_bits ->
  let T := words_of w (addr w d) (addr w d + (addr w last - addr w first)) in
  within (transform1 p w op first last d) (3 * T) T any.
Proof.
  intros p w op first last d Vw V1 V2 Vd H T. pose proof (valid_pos w Vw) as W.
  pose proof (words_of_nonneg w (addr w d) (addr w d + (addr w last - addr w first)) ltac:(lia)) as T0.
  unfold transform1, max_bits in *. cbv zeta.
  rewrite assert_viable_eq, distance_eq by (assumption || lia). w1.
  rewrite (ieq_addr w) by (assumption || lia).
  destruct (Z.eqb_spec (addr w first) (addr w last)) as [C0|C0]; [ws|]. w1.
  set (N := addr w last - addr w first) in *. subst T.
  revert T0. rewrite words_split by (assumption || lia). intros T0.
  pose proof (rest_bound w d N Vd ltac:(lia)) as RB.
  set (R := rest_of w d N) in *.
  assert (0 <= R / w) by (apply Z.div_pos; lia).
  apply within_bind with (r1 := if ip d =? 0 then 0 else 3) (n1 := if ip d =? 0 then 0 else 1)
    (P := fun '(r, f, _) => r = R /\ addr w last = addr w f + R).
  - unfold R. destruct (Z.eqb_spec (ip d) 0) as [C1|C1]; cbn [negb].
    + w1. unfold rest_of. rewrite (proj2 (Z.eqb_eq (ip d) 0) C1). split; [reflexivity|]. unfold N. lia.
    + w1. wb c_get_word. intros g _. 
      assert (usub w (ip d) = w - ip d) as -> by (unfold valid_it in Vd; rewrite usub_small by lia; lia).
      do 3 w1. wl f Hf. w1.
      destruct (after_part w first last d N f Vw V1 Vd eq_refl ltac:(lia) C1 Hf) as [F1 [F2 F3]]. auto.
  - destruct (ip d =? 0), (R mod w =? 0); lia.
  - destruct (ip d =? 0), (R mod w =? 0); lia.
  - intros [[r f] it] [-> F].
    destruct (Z.ltb_spec 0 R) as [C1|C1].
    2:{ destruct (ip d =? 0), (R mod w =? 0); ws. }
    eapply within_bind with (r1 := _) (n1 := _) (P := any).
    + apply within_bind with (r1 := 2 * (R / w)) (n1 := R / w) (P := fun '(_, _, r) => r = R mod w).
      * destruct ((ip f =? 0) && (w <? R)) eqn:C2.
        -- destruct (whole_words w f last R Vw V2 ltac:(lia) F) as [E1 E2]. cbv zeta.
           rewrite E2, E1.
           eapply within_bind; [apply c_words_transform|lia|lia|]. intros _ _. w1. reflexivity.
        -- eapply within_mono; [apply c_transform_loop; [assumption|lia|lia]|lia|lia|auto].
      * instantiate (1 := 2 * (R / w) + (if R mod w =? 0 then 0 else 3)).
        destruct (R mod w =? 0); lia.
      * instantiate (1 := R / w + (if R mod w =? 0 then 0 else 1)).
        destruct (R mod w =? 0); lia.
      * intros [[it' f'] r'] ->.
        destruct (Z.ltb_spec 0 (R mod w)) as [C2|C2].
        -- replace (R mod w =? 0) with false by lia. w1. wb c_get_word. intros g _. ws.
        -- destruct (R mod w =? 0); ws.
    + destruct (ip d =? 0), (R mod w =? 0); lia.
    + destruct (ip d =? 0), (R mod w =? 0); lia.
    + intros _ _. destruct (ip d =? 0), (R mod w =? 0); ws.
Qed.

Lemma c_transform2_loop : forall p w op, valid_w w -> forall n R it f1 f2, 0 <= R < 2 ^ 63 ->
  Z.of_nat n = R / w ->
  within (transform2_loop p w op n it f1 f2 R) (4 * Z.of_nat n) (Z.of_nat n)
    (fun '(_, _, _, r) => r = R mod w).
Proof.
  intros p w op Vw. pose proof (valid_pos w Vw) as W.
  induction n as [|n IH]; intros R it f1 f2 HR Hn; cbn [transform2_loop].
  - destruct (Z.leb_spec w R).
    + pose proof (Z.div_le_lower_bound R w 1). lia.
    + w1. rewrite Z.mod_small by lia. reflexivity.
  - destruct (Z.leb_spec w R).
    + wb c_get_word. intros x _. wb c_get_word. intros y _. do 3 w1. rewrite usub_small by lia.
      eapply within_mono; [apply IH|lia|lia|].
      * lia.
      * replace (R - w) with (R + (-1) * w) by lia. rewrite Z.div_add by lia. lia.
      * intros [[[? ?] ?] ?] ->. replace (R - w) with (R + (-1) * w) by lia.
        rewrite Z.mod_add by lia. reflexivity.
    + rewrite Z.div_small in Hn by lia. lia.
Qed.

Lemma c_transform2 : forall p w op first last first2 d, valid_w w -> valid_it w first ->
  valid_it w last -> valid_it w d -> 0 <= addr w last - addr w first <= max_bits ->
  let T := words_of w (addr w d) (addr w d + (addr w last - addr w first)) in
  within (transform2 p w op first last first2 d) (5 * T) T any.
Proof.
  intros p w op first last first2 d Vw V1 V2 Vd H T. pose proof (valid_pos w Vw) as W.
  pose proof (words_of_nonneg w (addr w d) (addr w d + (addr w last - addr w first)) ltac:(lia)) as T0.
  unfold transform2, max_bits in *. cbv zeta.
  rewrite assert_viable_eq, distance_eq by (assumption || lia). w1.
  rewrite (ieq_addr w) by (assumption || lia).
  destruct (Z.eqb_spec (addr w first) (addr w last)) as [C0|C0]; [ws|]. w1.
  set (N := addr w last - addr w first) in *. subst T.
  revert T0. rewrite words_split by (assumption || lia). intros T0.
  pose proof (rest_bound w d N Vd ltac:(lia)) as RB.
  set (R := rest_of w d N) in *.
  assert (0 <= R / w) by (apply Z.div_pos; lia).
  apply within_bind with (r1 := if ip d =? 0 then 0 else 5) (n1 := if ip d =? 0 then 0 else 1)
    (P := fun '(r, f, _, _) => r = R /\ addr w last = addr w f + R).
  - unfold R. destruct (Z.eqb_spec (ip d) 0) as [C1|C1]; cbn [negb].
    + w1. unfold rest_of. rewrite (proj2 (Z.eqb_eq (ip d) 0) C1). split; [reflexivity|]. unfold N. lia.
    + w1. wb c_get_word. intros g _. w1. wb c_get_word. intros g2 _.
      assert (usub w (ip d) = w - ip d) as -> by (unfold valid_it in Vd; rewrite usub_small by lia; lia).
      do 3 w1. wl f Hf. wl f2 Hf2. w1.
      destruct (after_part w first last d N f Vw V1 Vd eq_refl ltac:(lia) C1 Hf) as [F1 [F2 F3]]. auto.
  - destruct (ip d =? 0), (R mod w =? 0); lia.
  - destruct (ip d =? 0), (R mod w =? 0); lia.
  - intros [[[r f] f2] it] [-> F].
    destruct (Z.ltb_spec 0 R) as [C1|C1].
    2:{ destruct (ip d =? 0), (R mod w =? 0); ws. }
    eapply within_bind with (r1 := _) (n1 := _) (P := any).
    + apply within_bind with (r1 := 4 * (R / w)) (n1 := R / w) (P := fun '(_, _, _, r) => r = R mod w).
      * destruct ((ip f =? 0) && (ip f2 =? 0) && (w <? R)) eqn:C2.
        -- destruct (whole_words w f last R Vw V2 ltac:(lia) F) as [E1 E2]. cbv zeta.
           rewrite E2, E1.
           eapply within_bind; [apply c_words_transform2|lia|lia|]. intros _ _. do 3 w1. reflexivity.
        -- eapply within_mono; [apply c_transform2_loop; [assumption|lia|lia]|lia|lia|auto].
      * instantiate (1 := 4 * (R / w) + (if R mod w =? 0 then 0 else 5)).
        destruct (R mod w =? 0); lia.
      * instantiate (1 := R / w + (if R mod w =? 0 then 0 else 1)).
        destruct (R mod w =? 0); lia.
      * intros [[[it' f'] f2'] r'] ->.
        destruct (Z.ltb_spec 0 (R mod w)) as [C2|C2].
        -- replace (R mod w =? 0) with false by lia. w1. wb c_get_word. intros g _.
           wb c_get_word. intros g2 _. ws.
        -- destruct (R mod w =? 0); ws.
    + destruct (ip d =? 0), (R mod w =? 0); lia.
    + destruct (ip d =? 0), (R mod w =? 0); lia.
    + intros _ _. destruct (ip d =? 0), (R mod w =? 0); ws.
Qed.
