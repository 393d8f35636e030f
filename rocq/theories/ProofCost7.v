(** equal stops reading at the word of the first difference. *)
From Coq Require Import ZArith Bool List Lia.
From Verif Require Import Base WordOps IterModel PopcntModel Spec ProofBase ProofIter ProofWord ProofRange ProofAlg1
  AlgModel ProofCopy ProofAlg2 ThreadModel TraceModel SpecCost ProofTrace ProofCost.
Import ListNotations.
Open Scope Z_scope.

(** Alone on [m], after [r] reads and without a write, the thread ends with a value
    that meets [Q] together with the number of reads then made. *)
Fixpoint spends {A} (t : thread A) (m : mem) (r : Z) (Q : A -> Z -> Prop) : Prop :=
  match t with
  | Done (Ok a) => Q a r
  | Done _ => False
  | Read a k => match m a with Some x => spends (k x) m (r + 1) Q | None => False end
  | Write _ _ _ => False
  end.

Lemma spends_reads : forall A (t : thread A) m r (Q : A -> Z -> Prop) B, spends t m r Q ->
  (forall a n, Q a n -> n <= B) -> r + reads t m <= B.
Proof.
  intros A t. induction t as [x|b k IH|b v k IH]; intros m r Q B H HB; cbn [spends reads] in *.
  - destruct x; try contradiction. specialize (HB _ _ H). lia.
  - destruct (m b) as [x|]; [|contradiction]. specialize (IH x m (r + 1) Q B H HB). lia.
  - contradiction.
Qed.

Lemma spends_bind : forall A B (t : thread A) (f : A -> thread B) m r Q,
  spends t m r (fun a n => spends (f a) m n Q) -> spends (tbind t f) m r Q.
Proof.
  intros A B t f. induction t as [x|b k IH|b v k IH]; intros m r Q H; cbn [spends tbind] in *.
  - destruct x; cbn [spends]; auto.
  - destruct (m b); auto.
  - contradiction.
Qed.

Lemma spends_mono : forall A (t : thread A) m r (P Q : A -> Z -> Prop), spends t m r P ->
  (forall a n, P a n -> Q a n) -> spends t m r Q.
Proof.
  intros A t. induction t as [x|b k IH|b v k IH]; intros m r P Q H HPQ; cbn [spends] in *.
  - destruct x; auto.
  - destruct (m b); eauto.
  - contradiction.
Qed.

(** A thread without writes that is known to end well, and whose reads are bounded. *)
Lemma spends_alone : forall A (t : thread A) m r k a (Q : A -> Z -> Prop), within t k 0 any ->
  alone t m = Ok (a, m) -> (forall n, r <= n <= r + k -> Q a n) -> spends t m r Q.
Proof.
  intros A t. induction t as [x|b f IH|b v f IH]; intros m r k a Q W E HQ;
    cbn [spends within alone] in *.
  - destruct x; try discriminate. injection E as ->. apply HQ. lia.
  - destruct (m b) as [x|]; [|discriminate].
    pose proof (within_nonneg _ _ _ _ _ (W x)).
    apply (IH x m (r + 1) (k - 1) a); auto. intros n Hn. apply HQ. lia.
  - pose proof (within_nonneg _ _ _ _ _ W). lia.
Qed.

Lemma s_ret : forall A (a : A) m r (Q : A -> Z -> Prop), Q a r -> spends (ret a) m r Q.
Proof. intros. exact H. Qed.

Lemma s_lift : forall A B (x : res A) (f : A -> thread B) m r Q,
  rwp x (fun a => spends (f a) m r Q) -> spends (tbind (lift x) f) m r Q.
Proof. intros A B x f m r Q H. destruct x; exact H. Qed.

Lemma s_load : forall w B a (f : Z -> thread B) m r Q, 0 < w -> wf_mem w m -> m a <> None ->
  (forall x, 0 <= x < 2 ^ w ->
     (forall i, a * w <= i < a * w + w -> bit w m i = Z.testbit x (i - a * w)) ->
     spends (f x) m (r + 1) Q) ->
  spends (tbind (load a) f) m r Q.
Proof.
  intros w B a f m r Q W Wf Na H.
  pose proof (wp_load w a m (fun x _ => spends (f x) m (r + 1) Q) W Wf Na H) as P.
  unfold wp, Base.load in P. cbn [tbind load spends]. destruct (m a); exact P.
Qed.

Lemma s_get_word : forall p w B it len (f : Z -> thread B) m r Q, valid_w w -> valid_it w it ->
  wf_mem w m -> 1 <= len <= w -> mapped w m (addr w it) (addr w it + len) ->
  (forall y n, r <= n <= r + 2 -> 0 <= y < 2 ^ w ->
     (forall k, 0 <= k < len -> Z.testbit y k = bit w m (addr w it + k)) ->
     spends (f y) m n Q) ->
  spends (tbind (get_word p w it len) f) m r Q.
Proof.
  intros p w B it len f m r Q Vw Vi Wf L Hm H. apply spends_bind.
  destruct (get_word_ok p w m it len) as [v [E [R Bt]]]; try assumption.
  apply (spends_alone _ _ _ _ 2 v); [apply c_get_word| |].
  - rewrite <- E. apply sm_get_word.
  - intros n Hn. apply H; assumption.
Qed.

(** The words of [a] and [b] from which the loop starts differ at bit [i]. *)
Lemma s_words_equal : forall w n a b m r i, 0 < w -> wf_mem w m ->
  (forall c, a <= c < a + Z.of_nat n -> m c <> None) ->
  (forall c, b <= c < b + Z.of_nat n -> m c <> None) ->
  0 <= i -> bit w m (a * w + i) <> bit w m (b * w + i) ->
  spends (words_equal n a b) m r (fun same c =>
    if same : bool then Z.of_nat n * w <= i /\ c <= r + 2 * Z.of_nat n
    else c <= r + 2 * (i / w + 1)).
Proof.
  intros w n. induction n as [|n IH]; intros a b m r i W Wf Ha Hb Hi D; cbn [words_equal].
  - apply s_ret. lia.
  - apply (s_load w); try assumption; [apply Ha; lia|]. intros x Hx Bx.
    apply (s_load w); try assumption; [apply Hb; lia|]. intros y Hy By.
    pose proof (Z.div_pos i w Hi W).
    destruct (Z.eqb_spec x y) as [E|E].
    + subst y. assert (w <= i).
      { destruct (Z.lt_ge_cases i w) as [L|L]; [|lia]. exfalso. apply D.
        rewrite Bx, By by lia. f_equal. lia. }
      assert (Ed : (i - w) / w = i / w - 1)
        by (replace (i - w) with (i + (-1) * w) by lia; rewrite Z.div_add by lia; lia).
      eapply spends_mono; [apply (IH (a + 1) (b + 1) m _ (i - w)); try assumption|].
      * intros c Hc. apply Ha. lia.
      * intros c Hc. apply Hb. lia.
      * lia.
      * replace ((a + 1) * w + (i - w)) with (a * w + i) by lia.
        replace ((b + 1) * w + (i - w)) with (b * w + i) by lia. exact D.
      * intros same c H1. cbn beta in H1. rewrite Ed in H1. destruct same; lia.
    + apply s_ret. lia.
Qed.

Lemma s_equal_loop : forall p w fuel it first rem m r i, valid_w w -> valid_it w first ->
  wf_mem w m -> 0 <= rem < w * (Z.of_nat fuel + 1) -> rem <= 2 ^ 62 ->
  mapped w m (addr w first) (addr w first + rem) -> mapped w m (it * w) (it * w + rem) ->
  0 <= i < rem -> bit w m (addr w first + i) <> bit w m (it * w + i) ->
  spends (equal_loop p w fuel it first rem) m r (fun s c =>
    let '(bad, it', first', rem') := s in
    if bad : bool then c <= r + 3 * (i / w + 1)
    else valid_it w first' /\ addr w first' - addr w first = it' * w - it * w /\
      it <= it' /\ (it' - it) * w <= i /\ addr w first' + rem' = addr w first + rem /\ 0 <= rem' < w /\
      c <= r + 3 * (it' - it)).
Proof.
  intros p w fuel. induction fuel as [|fuel IH]; intros it first rem m r i Vw Vf Wf R R2 Ms Md Hi D;
    pose proof (valid_pos w Vw) as W; cbn [equal_loop]; destruct (Z.leb_spec w rem) as [E|E].
  - lia.
  - apply s_ret. repeat split; try apply Vf; lia.
  - apply (s_load w); try assumption; try lia.
    { apply (mapped_word w m (it * w) (it * w + rem)); try assumption; lia. }
    intros x Hx Bx. apply s_get_word; try assumption; try lia.
    { eapply mapped_sub; [exact Ms|lia|lia]. }
    intros y n Hn Hy By. pose proof (Z.div_pos i w ltac:(lia) ltac:(lia)).
    destruct (Z.eqb_spec x y) as [Exy|Exy]; cbn [negb].
    + subst y. assert (w <= i).
      { destruct (Z.lt_ge_cases i w) as [L|L]; [|lia]. exfalso. apply D.
        rewrite <- By, Bx by lia. f_equal. lia. }
      assert (Ed : (i - w) / w = i / w - 1)
        by (replace (i - w) with (i + (-1) * w) by lia; rewrite Z.div_add by lia; lia).
      apply s_lift. unfold advance. apply rwp_iadd; try assumption; try lia. intros f' Vf' Af'.
      rewrite usub_small by lia.
      eapply spends_mono; [apply (IH (it + 1) f' (rem - w) m _ (i - w)); try assumption; try lia|].
      * eapply mapped_sub; [exact Ms|lia|lia].
      * eapply mapped_sub; [exact Md|lia|lia].
      * rewrite Af'. replace (addr w first + w + (i - w)) with (addr w first + i) by lia.
        replace ((it + 1) * w + (i - w)) with (it * w + i) by lia. exact D.
      * intros [[[bad it'] f2] rem'] c H1. cbn beta iota in *. rewrite Ed in H1.
        destruct bad; [lia|]. destruct H1 as (H1 & H2 & H3 & H4 & H5 & H6 & H7).
        split; [exact H1|]. repeat split; lia.
    + apply s_ret. lia.
  - apply s_ret. repeat split; try apply Vf; lia.
Qed.

Lemma s_equal_tail : forall p w it first rem m r, valid_w w -> valid_it w first -> wf_mem w m ->
  0 <= rem < w -> mapped w m (addr w first) (addr w first + rem) ->
  mapped w m (it * w) (it * w + rem) ->
  spends (equal_tail p w it first rem) m r (fun _ c => c <= r + 3).
Proof.
  intros p w it first rem m r Vw Vf Wf R Ms Md. pose proof (valid_pos w Vw) as W.
  unfold equal_tail. destruct (Z.ltb_spec 0 rem) as [E|E]; [|apply s_ret; lia].
  apply s_lift. rewrite low_mask_eq by (assumption || lia). apply rwp_ok.
  apply s_get_word; try assumption; try lia. intros y n Hn Hy By.
  apply (s_load w); try assumption; try lia.
  { apply (mapped_word w m (it * w) (it * w + rem)); try assumption; lia. }
  intros x Hx Bx. apply s_ret. lia.
Qed.

Lemma s_equal : forall p w first last d m i, valid_w w -> wf_mem w m ->
  good_range w m first last -> good_dest w m d (addr w last - addr w first) ->
  0 <= i < addr w last - addr w first ->
  bit w m (addr w first + i) <> bit w m (addr w d + i) ->
  spends (equal p w first last d) m 0 (fun _ c =>
    c <= 3 * words_of w (addr w d) (addr w d + i + 1)).
Proof.
  intros p w first last d m i Vw Wf (Vf & Vl & Hlen & Ms) (Vd & Md) Hi D.
  pose proof (valid_pos w Vw) as W. pose proof (prom_ge w Vw) as Hpr. unfold max_bits in Hlen.
  assert (K : words_of w (addr w d) (addr w d + i + 1) = (ip d + i) / w + 1).
  { unfold words_of. destruct (Z.ltb_spec (addr w d) (addr w d + i + 1)); [|lia].
    rewrite addr_base by (assumption || lia). unfold addr.
    replace (ib d * w + ip d + i + 1 - 1) with (ip d + i + ib d * w) by lia.
    rewrite Z.div_add by lia. lia. }
  rewrite K. clear K. set (B := (ip d + i) / w + 1) in *.
  unfold valid_it in Vd.
  pose proof (Z.div_pos (ip d + i) w ltac:(lia) ltac:(lia)) as HB.
  unfold equal. apply s_lift. rewrite assert_viable_eq by (assumption || lia). apply rwp_ok.
  rewrite (ieq_addr w) by (assumption || lia).
  destruct (Z.eqb_spec (addr w first) (addr w last)) as [E|E]; [lia|].
  apply s_lift. rewrite distance_eq by (assumption || lia). apply rwp_ok.
  set (len := addr w last - addr w first) in *.
  apply spends_bind.
  apply spends_mono with (P := fun s c => match s with
    | None => c <= 3 * B
    | Some (rem, f, it) => exists o, valid_it w f /\ addr w f = addr w first + o /\
        it * w = addr w d + o /\ 0 <= o <= i /\ rem = len - o /\ c <= 3 * (it - ib d) end).
  { destruct (Z.eqb_spec (ip d) 0) as [E0|E0]; cbn [negb].
    - apply s_ret. exists 0. split; [assumption|]. unfold addr in *. lia.
    - rewrite usub_small by lia. set (part := Z.min len (w - ip d)) in *.
      assert (Hp : 0 < part < w /\ part <= len /\ part <= w - ip d) by lia.
      pose proof (pow_pos part ltac:(lia)).
      assert (2 ^ part < 2 ^ w) by (apply Z.pow_lt_mono_r; lia).
      apply s_lift. rewrite low_mask_eq by (assumption || lia). apply rwp_ok.
      apply s_lift. apply rwp_cshl; try assumption; try lia. intros mk Hmk.
      apply s_get_word; try assumption; try lia.
      { eapply mapped_sub; [exact Ms|lia|lia]. }
      intros g n Hn Hg Hgb. apply s_lift. apply rwp_cshl; try assumption; try lia.
      intros c Hc. apply (s_load w); try assumption; try lia.
      { apply (mapped_word w m (addr w d) (addr w d + len)); try assumption; unfold addr; lia. }
      intros x Hx Hbx.
      assert (Hmask : forall k, 0 <= k ->
        Z.testbit (wrap w mk) k = inr (ip d) (ip d + part) k).
      { intros k Hk. destruct (Z.lt_ge_cases k w).
        - rewrite (shl_testbit w mk (2 ^ part - 1) (ip d)) by (assumption || lia).
          destruct (Z.lt_ge_cases k (ip d)).
          + rewrite Z.testbit_neg_r by lia. bsplit. reflexivity.
          + rewrite ones_testbit' by lia. bsplit; reflexivity.
        - rewrite (testbit_high w) by (try lia; apply wrap_range; lia).
          bsplit. reflexivity. }
      destruct (Z.eqb_spec (Z.land (wrap w mk) x) (Z.land (wrap w mk) (wrap w c)))
        as [E1|E1]; cbn [negb].
      + assert (L : part <= i).
        { destruct (Z.lt_ge_cases i part) as [L|L]; [|lia]. exfalso. apply D.
          rewrite (masked_eq _ _ _ (ip d) (ip d + part)) in E1 by (assumption || lia).
          specialize (E1 (ip d + i) ltac:(lia)).
          rewrite (shl_testbit w c g (ip d)) in E1 by (assumption || lia).
          replace (ip d + i - ip d) with i in E1 by lia.
          rewrite <- Hgb, <- E1 by lia. unfold addr. rewrite Hbx by lia. f_equal. lia. }
        apply s_lift. unfold advance. apply rwp_iadd; try assumption; try lia. intros f1 Vf1 Af1.
        rewrite usub_small by lia. apply s_ret. exists part.
        split; [assumption|]. unfold addr in *. lia.
      + apply s_ret. lia. }
  intros [[[rem f] it]|] c.
  2:{ intros H. apply s_ret. exact H. }
  intros (o & V & Af & Ai & Ho & -> & Hc).
  destruct (Z.ltb_spec 0 (len - o)) as [E1|E1]; [|lia].
  assert (Ms1 : mapped w m (addr w f) (addr w f + (len - o)))
    by (eapply mapped_sub; [exact Ms|lia|lia]).
  assert (Md1 : mapped w m (it * w) (it * w + (len - o)))
    by (eapply mapped_sub; [exact Md|lia|lia]).
  assert (D1 : bit w m (addr w f + (i - o)) <> bit w m (it * w + (i - o))).
  { rewrite Af, Ai. replace (addr w first + o + (i - o)) with (addr w first + i) by lia.
    replace (addr w d + o + (i - o)) with (addr w d + i) by lia. exact D. }
  assert (EB : B = (it - ib d) + (i - o) / w + 1).
  { unfold B. replace (ip d + i) with (i - o + (it - ib d) * w) by (unfold addr in Ai; lia).
    rewrite Z.div_add by lia. lia. }
  pose proof (Z.div_pos (i - o) w ltac:(lia) ltac:(lia)) as HJ.
  destruct ((ip f =? 0) && (w <=? len - o)) eqn:E2.
  - assert (Hn : ib f <= ib last) by (apply (base_le w); assumption || lia).
    assert (Hal : addr w f = ib f * w) by (unfold addr; lia).
    assert (Hpl : ib last * w <= addr w last < ib last * w + w)
      by (unfold addr, valid_it in *; lia).
    apply spends_bind.
    eapply spends_mono; [apply (s_words_equal w _ _ _ _ _ (i - o)); try assumption; try lia|].
    { intros b Hb. pose proof (mul_mono w (ib f) b ltac:(lia) ltac:(lia)).
      pose proof (mul_mono w (b + 1) (ib last) ltac:(lia) ltac:(lia)).
      apply (mapped_word w m (addr w first) (addr w last)); try assumption; lia. }
    { intros b Hb. pose proof (mul_mono w it b ltac:(lia) ltac:(lia)).
      pose proof (mul_mono w (b + 1) (it + (ib last - ib f)) ltac:(lia) ltac:(lia)).
      apply (mapped_word w m (it * w) (it * w + (len - o))); try assumption; lia. }
    { rewrite <- Hal. exact D1. }
    intros same c1 H1. cbn beta in H1.
    replace (Z.of_nat (Z.to_nat (ib last - ib f))) with (ib last - ib f) in H1 by lia.
    destruct same; cbn [negb]; [|apply s_ret; lia].
    assert (ib last - ib f <= (i - o) / w) by (apply Z.div_le_lower_bound; lia).
    apply s_lift. apply rwp_iadd; try assumption; try lia. intros f2 Vf2 Af2.
    rewrite usub_small by lia.
    eapply spends_mono; [apply s_equal_tail; try assumption; try lia|].
    + eapply mapped_sub; [exact Ms1|lia|lia].
    + eapply mapped_sub; [exact Md1|lia|lia].
    + intros a2 c2 H2. cbn beta in H2. lia.
  - apply spends_bind.
    eapply spends_mono; [apply (s_equal_loop p w _ _ _ _ _ _ (i - o)); try assumption; try lia|].
    intros [[[bad it'] f2] rem'] c1 H1. cbn beta iota in H1.
    destruct bad; [apply s_ret; lia|].
    destruct H1 as (H1 & H2 & H3 & H4 & H5 & H6 & H7).
    pose proof (mul_mono w it it' ltac:(lia) ltac:(lia)).
    assert (it' - it <= (i - o) / w) by (apply Z.div_le_lower_bound; lia).
    eapply spends_mono; [apply s_equal_tail; try assumption; try lia|].
    + eapply mapped_sub; [exact Ms1|lia|lia].
    + eapply mapped_sub; [exact Md1|lia|lia].
    + intros a2 c2 G. cbn beta in G. lia.
Qed.

Lemma equal_stops : forall p w first last d m i, valid_w w -> wf_mem w m ->
  good_range w m first last -> good_dest w m d (addr w last - addr w first) ->
  0 <= i < addr w last - addr w first ->
  bit w m (addr w first + i) <> bit w m (addr w d + i) ->
  reads (equal p w first last d) m <= 3 * words_of w (addr w d) (addr w d + i + 1).
Proof.
  intros p w first last d m i Vw Wf G1 G2 Hi D.
  pose proof (spends_reads _ _ _ _ _ _ (s_equal p w first last d m i Vw Wf G1 G2 Hi D)
    (fun _ _ H => H)). lia.
Qed.
