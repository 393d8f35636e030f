(** The bytes that count reads (CountTraceModel): the thread is the function of AlgModel, and
    reads every byte once. *)
From Coq Require Import ZArith Bool List Lia.
From Coq Require Import ZifyBool.
From Verif Require Import Base WordOps IterModel PopcntModel AlgModel ThreadModel Spec SpecCost SpecReads
  ProofBase ProofIter ProofSteps ProofCount.
From Verif Require CountTraceModel.
Import ListNotations.
Open Scope Z_scope.
Ltac Zify.zify_post_hook ::= idtac.

(** * The same function *)

Section Same.
Variable rd : mem.

Definition as_res {A} (t : thread A) (r : res A) : Prop := alone t rd = lift r rd.

Lemma ar_bind : forall A B (t : thread A) (r : res A) (f : A -> thread B) (g : A -> res B),
  as_res t r -> (forall a, as_res (f a) (g a)) -> as_res (tbind t f) (rbind r g).
Proof.
  intros A B t r f g H1 H2. unfold as_res in *. rewrite tbind_alone. unfold bind. rewrite H1.
  destruct r; cbn [lift rbind]; try reflexivity. apply H2.
Qed.

Lemma ar_ret : forall A (a : A), as_res (CountTraceModel.ret a) (Ok a).
Proof. intros. reflexivity. Qed.

Lemma ar_fuel : forall A, as_res (Done (A := A) Fuel) Fuel.
Proof. intros. reflexivity. Qed.

Lemma ar_load_bytes : forall n a, as_res (CountTraceModel.load_bytes a n) (load_bytes rd a n).
Proof.
  induction n as [|n IH]; intros a; [reflexivity|]. unfold as_res. cbn [CountTraceModel.load_bytes load_bytes alone].
  destruct (rd a) as [b|]; [|reflexivity]. apply ar_bind; [apply IH|]. intros; reflexivity.
Qed.

Create HintDb asres discriminated.
Hint Resolve ar_ret ar_fuel ar_load_bytes : asres.

Ltac ar :=
  match goal with
  | |- forall _, _ => intro
  | |- _ => solve [auto with asres nocore]
  | |- as_res (tbind _ _) (rbind _ _) => apply ar_bind
  | |- as_res (match ?x with _ => _ end) _ => destruct x
  | |- _ => progress cbv zeta
  end.

Lemma ar_vload : forall s a k, as_res (CountTraceModel.vload s a k) (vload s rd a k).
Proof. intros. apply ar_load_bytes. Qed.
Hint Resolve ar_vload : asres.

Lemma ar_csa_load : forall s a k o, as_res (CountTraceModel.csa_load s a k o) (csa_load s rd a k o).
Proof. intros. unfold CountTraceModel.csa_load, csa_load. repeat ar. Qed.
Hint Resolve ar_csa_load : asres.

Lemma ar_hs_block : forall s a i h, as_res (CountTraceModel.hs_block s a i h) (hs_block s rd a i h).
Proof. intros. unfold CountTraceModel.hs_block, hs_block. repeat ar. Qed.
Hint Resolve ar_hs_block : asres.

Lemma ar_hs_loop : forall s a f limit i cnt h,
  as_res (CountTraceModel.hs_loop s a f limit i cnt h) (hs_loop s rd a f limit i cnt h).
Proof. induction f as [|f IH]; intros; cbn [CountTraceModel.hs_loop hs_loop]; repeat ar. Qed.
Hint Resolve ar_hs_loop : asres.

Lemma ar_hs_tail : forall s a f size i cnt,
  as_res (CountTraceModel.hs_tail s a f size i cnt) (hs_tail s rd a f size i cnt).
Proof. induction f as [|f IH]; intros; cbn [CountTraceModel.hs_tail hs_tail]; repeat ar. Qed.
Hint Resolve ar_hs_tail : asres.

Lemma ar_popcnt_simd : forall s a size, as_res (CountTraceModel.popcnt_simd s a size) (popcnt_simd s rd a size).
Proof. intros. unfold CountTraceModel.popcnt_simd, popcnt_simd. repeat ar. Qed.
Hint Resolve ar_popcnt_simd : asres.

Lemma ar_pop_words : forall pop a f limit i cnt,
  as_res (CountTraceModel.pop_words pop a f limit i cnt) (pop_words pop rd a f limit i cnt).
Proof. induction f as [|f IH]; intros; cbn [CountTraceModel.pop_words pop_words]; repeat ar. Qed.
Hint Resolve ar_pop_words : asres.

Lemma ar_pop_bytes : forall a f size i cnt,
  as_res (CountTraceModel.pop_bytes a f size i cnt) (pop_bytes rd a f size i cnt).
Proof. induction f as [|f IH]; intros; cbn [CountTraceModel.pop_bytes pop_bytes]; repeat ar. Qed.
Hint Resolve ar_pop_bytes : asres.

Lemma ar_simd_part : forall s on min a size i cnt,
  as_res (CountTraceModel.simd_part s on min a size i cnt) (simd_part s on min rd a size i cnt).
Proof. intros. unfold CountTraceModel.simd_part, simd_part. repeat ar. Qed.
Hint Resolve ar_simd_part : asres.

Lemma ar_popcnt_x86 : forall c a size, as_res (CountTraceModel.popcnt_x86 c a size) (popcnt_x86 c rd a size).
Proof. intros. unfold CountTraceModel.popcnt_x86, popcnt_x86. repeat ar. Qed.
Hint Resolve ar_popcnt_x86 : asres.

Lemma ar_pop_align : forall a f i cnt, as_res (CountTraceModel.pop_align a f i cnt) (pop_align rd a f i cnt).
Proof. induction f as [|f IH]; intros; cbn [CountTraceModel.pop_align pop_align]; repeat ar. Qed.
Hint Resolve ar_pop_align : asres.

Lemma ar_popcnt_generic : forall a size, as_res (CountTraceModel.popcnt_generic a size) (popcnt_generic rd a size).
Proof. intros. unfold CountTraceModel.popcnt_generic, popcnt_generic. repeat ar. Qed.
Hint Resolve ar_popcnt_generic : asres.

Lemma ar_neon_inner : forall f limit i ptr t,
  as_res (CountTraceModel.neon_inner f limit i ptr t) (neon_inner rd f limit i ptr t).
Proof. induction f as [|f IH]; intros; cbn [CountTraceModel.neon_inner neon_inner]; repeat ar. Qed.
Hint Resolve ar_neon_inner : asres.

Lemma ar_neon_outer : forall f iters i ptr sum,
  as_res (CountTraceModel.neon_outer f iters i ptr sum) (neon_outer rd f iters i ptr sum).
Proof. induction f as [|f IH]; intros; cbn [CountTraceModel.neon_outer neon_outer]; repeat ar. Qed.
Hint Resolve ar_neon_outer : asres.

Lemma ar_popcnt_neon : forall u a size, as_res (CountTraceModel.popcnt_neon u a size) (popcnt_neon u rd a size).
Proof. intros. unfold CountTraceModel.popcnt_neon, popcnt_neon. repeat ar. Qed.
Hint Resolve ar_popcnt_neon : asres.

Lemma ar_popcnt : forall t a size, as_res (CountTraceModel.popcnt t a size) (popcnt t rd a size).
Proof. intros [c|u|] a size; cbn [CountTraceModel.popcnt popcnt]; repeat ar. Qed.
End Same.

(** The word read byte by byte. *)
Lemma word_bytes : forall w m a x, valid_w w -> 0 <= x < 2 ^ w -> m a = Some x ->
  forall n j, 0 <= j -> j + Z.of_nat n = w / 8 ->
  load_bytes (byte_view w m) (a * (w / 8) + j) n = Ok (x / 2 ^ (8 * j)).
Proof.
  intros w m a x Vw Hx E. assert (W8 : w = 8 * (w / 8) /\ 1 <= w / 8).
  { destruct Vw as [-> |[-> |[-> |[-> | ->]]]]; cbn; lia. }
  induction n as [|n IH]; intros j Hj Hn.
  - cbn [load_bytes]. rewrite Z.div_small; [reflexivity|]. replace (8 * j) with w by lia. exact Hx.
  - cbn [load_bytes]. unfold byte_view at 1.
    assert (D : (a * (w / 8) + j) / (w / 8) = a) by (symmetry; apply Z.div_unique with j; lia).
    assert (R : (a * (w / 8) + j) mod (w / 8) = j) by (symmetry; apply Z.mod_unique with a; lia).
    rewrite D, R, E. rewrite <- Z.add_assoc, IH by lia. cbn [rbind]. f_equal. unfold byte_of.
    replace (8 * (j + 1)) with (8 * j + 8) by ring. rewrite Z.pow_add_r, <- Z.div_div by lia.
    change (2 ^ 8) with 256. pose proof (Z.div_mod (x / 2 ^ (8 * j)) 256 ltac:(lia)). lia.
Qed.

Section Count.
Variables (w : Z) (m : mem).
Hypothesis Vw : valid_w w.
Hypothesis Wf : wf_mem w m.

Definition as_count {A} (t : thread A) (c : M A) : Prop :=
  exists r, alone t (byte_view w m) = lift r (byte_view w m) /\ c m = lift r m.

Lemma ac_bind : forall A B (t : thread A) (c : M A) (f : A -> thread B) (g : A -> M B),
  as_count t c -> (forall a, as_count (f a) (g a)) -> as_count (tbind t f) (bind c g).
Proof.
  intros A B t c f g (r & H1 & H2) H. unfold as_count. rewrite tbind_alone. unfold bind. rewrite H1, H2.
  destruct r as [a|k| | |]; cbn [lift].
  - destruct (H a) as (r & K1 & K2). exists r. auto.
  - exists (UB k). auto.
  - exists Assert. auto.
  - exists Throw. auto.
  - exists Fuel. auto.
Qed.

Lemma ac_lift : forall A (r : res A), as_count (CountTraceModel.lift r) (lift r).
Proof. intros A r. exists r. split; reflexivity. Qed.

Lemma ac_ret : forall A (a : A), as_count (CountTraceModel.ret a) (ret a).
Proof. intros A a. exists (Ok a). split; reflexivity. Qed.

Lemma ac_load : forall a, as_count (CountTraceModel.load w a) (load a).
Proof.
  intros a. unfold as_count, CountTraceModel.load. rewrite (ar_load_bytes (byte_view w m)).
  assert (W8 : w = 8 * (w / 8) /\ 1 <= w / 8).
  { destruct Vw as [-> |[-> |[-> |[-> | ->]]]]; cbn; lia. }
  unfold load. destruct (m a) as [x|] eqn:E.
  - exists (Ok x). split; [|reflexivity]. f_equal.
    rewrite <- (Z.add_0_r (a * (w / 8))). rewrite (word_bytes w m a x Vw (Wf a x E) E) by lia.
    change (2 ^ (8 * 0)) with 1. rewrite Z.div_1_r. reflexivity.
  - exists (UB OutOfBounds). split; [|reflexivity]. f_equal.
    destruct (Z.to_nat (w / 8)) as [|n] eqn:En; [lia|]. cbn [load_bytes]. unfold byte_view at 1.
    rewrite Z.div_mul, E by lia. reflexivity.
Qed.

Lemma ac_popcnt : forall t it size, as_count (CountTraceModel.popcnt t (it * (w / 8)) size) (popcnt_mem t w it size).
Proof.
  intros t it size. exists (popcnt t (byte_view w m) (it * (w / 8)) size).
  split; [apply ar_popcnt|reflexivity].
Qed.

Create HintDb ascount discriminated.
Hint Resolve ac_lift ac_ret ac_load ac_popcnt : ascount.

Ltac ac :=
  match goal with
  | |- forall _, _ => intro
  | |- _ => solve [auto with ascount nocore]
  | |- as_count (tbind _ _) (bind _ _) => apply ac_bind
  | |- as_count (match ?x with _ => _ end) _ => destruct x
  | |- _ => progress cbv zeta
  end.

Lemma count_as : forall t p first last b, as_count (CountTraceModel.count t p w first last b) (count t p w first last b).
Proof. intros. unfold CountTraceModel.count, count. repeat ac. Qed.
End Count.

Lemma count_same_ok : forall t p w m first last b, valid_w w -> wf_mem w m ->
  exists r, alone (CountTraceModel.count t p w first last b) (byte_view w m) = lift r (byte_view w m) /\
    count t p w first last b m = lift r m.
Proof. intros. apply count_as; assumption. Qed.

(** * The bytes read *)

Lemma from_to_nil : forall a, from_to a a = [].
Proof. intros a. unfold from_to. rewrite Z.sub_diag. reflexivity. Qed.

Lemma from_to_cons : forall a b, a < b -> from_to a b = a :: from_to (a + 1) b.
Proof.
  intros a b H. unfold from_to. replace (Z.to_nat (b - a)) with (S (Z.to_nat (b - (a + 1)))) by lia.
  cbn [seq map]. f_equal; [lia|]. rewrite <- seq_shift, map_map. apply map_ext. intros i. lia.
Qed.

Lemma from_to_app : forall n a b c, b = a + Z.of_nat n -> b <= c ->
  from_to a b ++ from_to b c = from_to a c.
Proof.
  induction n as [|n IH]; intros a b c E H.
  - replace b with a by lia. rewrite from_to_nil. reflexivity.
  - rewrite (from_to_cons a b), (from_to_cons a c) by lia. cbn [app]. f_equal. apply IH; lia.
Qed.

Lemma read_at_bind : forall A B (t : thread A) (f : A -> thread B) m,
  read_at (tbind t f) m =
  read_at t m ++ match alone t m with Ok (a, m') => read_at (f a) m' | _ => [] end.
Proof.
  intros A B t f. induction t as [r|a k IH|a v k IH]; intros m.
  - destruct r; reflexivity.
  - cbn [tbind alone read_at app]. destruct (m a) as [x|]; [rewrite IH; reflexivity|reflexivity].
  - cbn [tbind alone read_at]. destruct (m a) as [x|]; [apply IH|reflexivity].
Qed.

Lemma writes_bind : forall A B (t : thread A) (f : A -> thread B) m,
  writes (tbind t f) m =
  writes t m + match alone t m with Ok (a, m') => writes (f a) m' | _ => 0 end.
Proof.
  intros A B t f. induction t as [r|a k IH|a v k IH]; intros m.
  - destruct r; reflexivity.
  - cbn [tbind alone writes]. destruct (m a) as [x|]; [apply IH|reflexivity].
  - cbn [tbind alone writes]. destruct (m a) as [x|]; [rewrite IH; lia|reflexivity].
Qed.

Section Reads.
Variables (rd : mem) (lo hi : Z).
Hypothesis Mp : forall b, lo <= b < hi -> rd b <> None.

(** The thread reads the bytes a, ... b - 1 in order and ends with a result for [Q]. *)
Definition goes {A} (t : thread A) (a b : Z) (Q : A -> Prop) : Prop :=
  exists x, alone t rd = Ok (x, rd) /\ (read_at t rd = from_to a b /\ writes t rd = 0) /\ Q x.

Lemma goes_bind : forall A B (t : thread A) (f : A -> thread B) a b c (P : A -> Prop) (Q : B -> Prop),
  goes t a b P -> a <= b <= c -> (forall x, P x -> goes (f x) b c Q) -> goes (tbind t f) a c Q.
Proof.
  intros A B t f a b c P Q (x & E1 & (R1 & W1) & H1) Hab H. destruct (H x H1) as (y & E2 & (R2 & W2) & H2).
  exists y. rewrite tbind_alone, read_at_bind, writes_bind. unfold bind. rewrite E1, E2, R1, R2, W1, W2.
  split; [reflexivity|]. split; [|exact H2]. split; [|reflexivity]. apply (from_to_app (Z.to_nat (b - a))); lia.
Qed.

Lemma goes_ret : forall A (x : A) a b (Q : A -> Prop), a = b -> Q x -> goes (CountTraceModel.ret x) a b Q.
Proof. intros A x a b Q -> H. exists x. rewrite from_to_nil. auto. Qed.

Lemma goes_lift : forall A (r : res A) x a b (Q : A -> Prop), a = b -> r = Ok x -> Q x ->
  goes (CountTraceModel.lift r) a b Q.
Proof. intros A r x a b Q -> -> H. exists x. rewrite from_to_nil. auto. Qed.

Lemma goes_load : forall n a b (Q : Z -> Prop), b = a + Z.of_nat n -> lo <= a -> b <= hi ->
  (forall x, Q x) -> goes (CountTraceModel.load_bytes a n) a b Q.
Proof.
  induction n as [|n IH]; intros a b Q E H1 H2 HQ.
  - apply goes_ret; [lia|apply HQ].
  - destruct (IH (a + 1) b (fun _ => True) ltac:(lia) ltac:(lia) H2 (fun _ => I)) as (x & E1 & (R1 & W1) & _).
    unfold goes. cbn [CountTraceModel.load_bytes alone read_at writes]. pose proof (Mp a ltac:(lia)) as N.
    destruct (rd a) as [y|]; [|contradiction]. exists (y + 256 * x).
    rewrite tbind_alone, read_at_bind, writes_bind. unfold bind. rewrite E1, R1, W1.
    cbn [alone read_at writes CountTraceModel.ret lift].
    rewrite app_nil_r, (from_to_cons a b) by lia. auto.
Qed.

Lemma goes_vload : forall s a k b c (Q : Z -> Prop), 0 <= vbytes s -> b = a + k * vbytes s ->
  c = a + (k + 1) * vbytes s -> lo <= b -> c <= hi -> (forall x, Q x) ->
  goes (CountTraceModel.vload s a k) b c Q.
Proof. intros s a k b c Q Hv -> -> H1 H2 HQ. apply goes_load; try assumption; lia. Qed.

Lemma goes_csa : forall s a k o b c (Q : Z * Z -> Prop), 0 <= vbytes s -> b = a + k * vbytes s ->
  c = a + (k + 2) * vbytes s -> lo <= b -> c <= hi -> (forall x, Q x) ->
  goes (CountTraceModel.csa_load s a k o) b c Q.
Proof.
  intros s a k o b c Q Hv -> -> H1 H2 HQ. unfold CountTraceModel.csa_load.
  eapply goes_bind with (b := a + (k + 1) * vbytes s) (P := fun _ => True).
  { apply goes_vload; auto; lia. } { lia. }
  intros x _. eapply goes_bind with (b := a + (k + 2) * vbytes s) (P := fun _ => True).
  { apply goes_vload; auto; lia. } { lia. }
  intros y _. apply goes_ret; auto.
Qed.

Lemma goes_block : forall s a i h b c (Q : Z * hs -> Prop), 0 <= vbytes s -> b = a + i * vbytes s ->
  c = a + (i + 16) * vbytes s -> lo <= b -> c <= hi -> (forall x, Q x) ->
  goes (CountTraceModel.hs_block s a i h) b c Q.
Proof.
  intros s a i h b c Q Hv -> -> H1 H2 HQ. unfold CountTraceModel.hs_block.
  Ltac blk s a i k := eapply goes_bind with (b := a + (i + k) * vbytes s) (P := fun _ => True);
    [apply goes_csa; auto; lia|lia|intros [? ?] _].
  Ltac spl := match goal with |- goes (let (_, _) := ?x in _) _ _ _ => destruct x end.
  blk s a i 2. blk s a i 4. spl. blk s a i 6. blk s a i 8. spl. spl.
  blk s a i 10. blk s a i 12. spl. blk s a i 14. blk s a i 16. spl. spl. spl.
  apply goes_ret; auto.
Qed.

Lemma goes_hs_loop : forall s a f limit i cnt h b c, 0 < vbytes s -> b = a + i * vbytes s ->
  c = a + limit * vbytes s -> i <= limit -> (limit - i) mod 16 = 0 -> limit - i <= 16 * Z.of_nat f ->
  lo <= b -> c <= hi ->
  goes (CountTraceModel.hs_loop s a f limit i cnt h) b c (fun x => fst (fst x) = limit).
Proof.
  induction f as [|f IH]; intros limit i cnt h b c Hv -> -> Hi Hm Hf H1 H2; cbn [CountTraceModel.hs_loop].
  - destruct (Z.leb_spec limit i) as [C|C]; [|lia]. apply goes_ret; [|cbn [fst]; lia].
    replace limit with i by lia. reflexivity.
  - destruct (Z.leb_spec limit i) as [C|C].
    { apply goes_ret; [|cbn [fst]; lia]. replace limit with i by lia. reflexivity. }
    assert (Q : i + 16 <= limit).
    { apply Z.div_exact in Hm; [|lia]. lia. }
    eapply goes_bind with (b := a + (i + 16) * vbytes s) (P := fun _ => True).
    { apply goes_block; auto; try lia; nia. } { nia. }
    intros [x h'] _. apply IH; auto; try lia; try nia.
    replace (limit - (i + 16)) with (limit - i + (-1) * 16) by lia. rewrite Z.mod_add by lia. exact Hm.
Qed.

Lemma goes_hs_tail : forall s a f size i cnt b c, 0 < vbytes s -> b = a + i * vbytes s ->
  c = a + size * vbytes s -> i <= size -> size - i <= Z.of_nat f -> lo <= b -> c <= hi ->
  goes (CountTraceModel.hs_tail s a f size i cnt) b c (fun _ => True).
Proof.
  induction f as [|f IH]; intros size i cnt b c Hv -> -> Hi Hf H1 H2; cbn [CountTraceModel.hs_tail].
  - destruct (Z.leb_spec size i) as [C|C]; [|lia]. apply goes_ret; auto.
    replace size with i by lia. reflexivity.
  - destruct (Z.leb_spec size i) as [C|C].
    { apply goes_ret; auto. replace size with i by lia. reflexivity. }
    eapply goes_bind with (b := a + (i + 1) * vbytes s) (P := fun _ => True).
    { apply goes_vload; auto; try lia; nia. } { nia. }
    intros x _. apply IH; auto; try lia; nia.
Qed.

Lemma goes_simd : forall s a size c, 0 < vbytes s -> 0 <= size -> c = a + size * vbytes s ->
  lo <= a -> c <= hi -> goes (CountTraceModel.popcnt_simd s a size) a c (fun _ => True).
Proof.
  intros s a size c Hv Hs -> H1 H2. unfold CountTraceModel.popcnt_simd. cbv zeta.
  pose proof (Z.div_mod size 16 ltac:(lia)) as D. pose proof (Z.mod_pos_bound size 16 ltac:(lia)) as B.
  assert (D0 : 0 <= size / 16) by (apply Z.div_pos; lia).
  eapply goes_bind with (b := a + (size - size mod 16) * vbytes s).
  { apply goes_hs_loop; auto; try lia; try nia.
    replace (size - size mod 16 - 0) with (size / 16 * 16) by lia. apply Z.mod_mul. lia. }
  { nia. }
  intros [[i cnt] h] Hi. cbn [fst] in Hi. subst i.
  eapply goes_bind with (b := a + size * vbytes s) (P := fun _ => True).
  { apply goes_hs_tail; auto; try lia; try nia. } { nia. }
  intros x _. apply goes_ret; auto.
Qed.

Lemma goes_words : forall pop a f limit i cnt, i <= limit -> (limit - i) mod 8 = 0 ->
  limit - i <= 8 * Z.of_nat f -> lo <= a + i -> a + limit <= hi ->
  goes (CountTraceModel.pop_words pop a f limit i cnt) (a + i) (a + limit) (fun x => fst x = limit).
Proof.
  induction f as [|f IH]; intros limit i cnt Hi Hm Hf H1 H2; cbn [CountTraceModel.pop_words].
  - destruct (Z.leb_spec limit i) as [C|C]; [|lia]. apply goes_ret; cbn [fst]; lia.
  - destruct (Z.leb_spec limit i) as [C|C]; [apply goes_ret; cbn [fst]; lia|].
    assert (Q : i + 8 <= limit) by (apply Z.div_exact in Hm; lia).
    eapply goes_bind with (b := a + (i + 8)) (P := fun _ => True).
    { apply goes_load; auto; lia. } { lia. }
    intros x _. apply IH; auto; try lia.
    replace (limit - (i + 8)) with (limit - i + (-1) * 8) by lia. rewrite Z.mod_add by lia. exact Hm.
Qed.

Lemma goes_bytes : forall a f size i cnt, i <= size -> size - i <= Z.of_nat f ->
  lo <= a + i -> a + size <= hi ->
  goes (CountTraceModel.pop_bytes a f size i cnt) (a + i) (a + size) (fun _ => True).
Proof.
  induction f as [|f IH]; intros size i cnt Hi Hf H1 H2; cbn [CountTraceModel.pop_bytes].
  - destruct (Z.leb_spec size i) as [C|C]; [|lia]. apply goes_ret; auto; lia.
  - destruct (Z.leb_spec size i) as [C|C]; [apply goes_ret; auto; lia|].
    eapply goes_bind with (b := a + (i + 1)) (P := fun _ => True).
    { apply goes_load; auto; lia. } { lia. }
    intros x _. apply IH; auto; lia.
Qed.

Lemma goes_part : forall s on min a size i cnt, 0 < vbytes s -> 0 <= i <= size -> 0 <= min ->
  i mod vbytes s = 0 -> lo <= a + i -> a + size <= hi ->
  exists j, goes (CountTraceModel.simd_part s on min a size i cnt) (a + i) (a + j) (fun x => fst x = j) /\
    i <= j <= size /\ (j = i \/ j mod vbytes s = 0).
Proof.
  intros s on min a size i cnt Hv Hi Hmin Hm H1 H2. unfold CountTraceModel.simd_part.
  destruct (on && (i + min <=? size)) eqn:C.
  - pose proof (Z.div_mod size (vbytes s) ltac:(lia)) as D.
    pose proof (Z.mod_pos_bound size (vbytes s) ltac:(lia)) as B.
    apply Z.div_exact in Hm; [|lia].
    assert (E : (size - i) / vbytes s = size / vbytes s - i / vbytes s).
    { symmetry. apply Z.div_unique with (size mod vbytes s); [lia|]. nia. }
    assert (L : i / vbytes s <= size / vbytes s) by (apply Z.div_le_mono; lia).
    exists (size - size mod vbytes s). split; [|split; [nia|right]].
    + eapply goes_bind with (b := a + (size - size mod vbytes s)) (P := fun _ => True).
      { apply goes_simd; auto; try lia; try nia. } { nia. }
      intros x _. apply goes_ret; reflexivity.
    + replace (size - size mod vbytes s) with (size / vbytes s * vbytes s) by lia. apply Z.mod_mul. lia.
  - exists i. split; [apply goes_ret; reflexivity|]. split; [lia|left; reflexivity].
Qed.

Lemma goes_x86 : forall c a size, 0 <= size -> lo <= a -> a + size <= hi ->
  goes (CountTraceModel.popcnt_x86 c a size) a (a + size) (fun _ => True).
Proof.
  intros c a size Hs H1 H2. unfold CountTraceModel.popcnt_x86. cbv zeta.
  destruct (goes_part avx512 (has_avx512 c) 1024 a size 0 0 ltac:(cbn; lia) ltac:(lia) ltac:(lia)
    ltac:(reflexivity) ltac:(lia) H2) as (j & G1 & J1 & J2).
  rewrite Z.add_0_r in G1. eapply goes_bind; [exact G1|lia|]. intros [j' cnt] E. cbn [fst] in E. subst j'.
  assert (J3 : j mod 32 = 0).
  { destruct J2 as [-> |J2]; [reflexivity|]. cbn [vbytes avx512] in J2.
    apply Z.div_exact in J2; [|lia]. rewrite J2. replace (64 * (j / 64)) with (2 * (j / 64) * 32) by ring.
    apply Z.mod_mul. lia. }
  destruct (goes_part avx2 (has_avx2 c) 512 a size j cnt ltac:(cbn; lia) ltac:(lia) ltac:(lia)
    J3 ltac:(lia) H2) as (k & G2 & K1 & K2).
  eapply goes_bind; [exact G2|lia|]. intros [k' cnt2] E. cbn [fst] in E. subst k'.
  assert (K3 : k mod 32 = 0) by (destruct K2 as [-> |K2]; [exact J3|exact K2]).
  pose proof (Z.div_mod size 8 ltac:(lia)) as D. pose proof (Z.mod_pos_bound size 8 ltac:(lia)) as B.
  assert (D0 : 0 <= size / 8) by (apply Z.div_pos; lia).
  apply Z.div_exact in K3; [|lia].
  assert (Hk : k <= size - size mod 8).
  { assert (4 * (k / 32) <= size / 8) by (apply Z.div_le_lower_bound; lia). lia. }
  assert (Hm : (size - size mod 8 - k) mod 8 = 0).
  { replace (size - size mod 8 - k) with ((size / 8 - 4 * (k / 32)) * 8) by lia. apply Z.mod_mul. lia. }
  destruct (has_popcnt c).
  - eapply goes_bind with (b := a + (size - size mod 8)).
    { apply goes_words; try assumption; lia. } { lia. }
    intros [i cnt3] E. cbn [fst] in E. subst i. apply goes_bytes; lia.
  - eapply goes_bind with (b := a + (size - size mod 8)).
    { apply goes_words; try assumption; lia. } { lia. }
    intros [i cnt3] E. cbn [fst] in E. subst i.
    destruct (Z.ltb_spec (size - size mod 8) size) as [C|C]; [|apply goes_ret; auto; lia].
    eapply goes_bind with (b := a + size) (P := fun _ => True).
    { apply goes_load; auto; lia. } { lia. }
    intros x _. apply goes_ret; auto.
Qed.

Lemma goes_neon_inner : forall f limit i ptr t, i <= limit -> limit - i <= Z.of_nat f -> lo <= ptr ->
  ptr + 64 * (limit - i) <= hi ->
  goes (CountTraceModel.neon_inner f limit i ptr t) ptr (ptr + 64 * (limit - i))
    (fun x => fst x = (limit, ptr + 64 * (limit - i))).
Proof.
  induction f as [|f IH]; intros limit i ptr t Hi Hf H1 H2; cbn [CountTraceModel.neon_inner].
  - destruct (Z.leb_spec limit i) as [C|C]; [|lia]. apply goes_ret; [lia|]. cbn [fst]. f_equal; lia.
  - destruct (Z.leb_spec limit i) as [C|C]; [apply goes_ret; [lia|]; cbn [fst]; f_equal; lia|].
    eapply goes_bind with (b := ptr + 64) (P := fun _ => True).
    { apply goes_load; auto; lia. } { lia. }
    intros x _. cbv zeta.
    replace (ptr + 64 * (limit - i)) with (ptr + 64 + 64 * (limit - (i + 1))) by ring. apply IH; lia.
Qed.

Lemma goes_neon_outer : forall f iters i ptr sum, i < iters -> iters - i <= 31 * Z.of_nat f ->
  lo <= ptr -> ptr + 64 * (iters - i) <= hi ->
  goes (CountTraceModel.neon_outer f iters i ptr sum) ptr (ptr + 64 * (iters - i))
    (fun x => fst x = ptr + 64 * (iters - i)).
Proof.
  induction f as [|f IH]; intros iters i ptr sum Hi Hf H1 H2; cbn [CountTraceModel.neon_outer]; [lia|].
  cbv zeta. set (l := if i + 31 <? iters then i + 31 else iters).
  assert (L : i < l /\ l <= iters /\ l - i <= 31 /\ (l < iters -> l = i + 31))
    by (unfold l; destruct (Z.ltb_spec (i + 31) iters); lia).
  eapply goes_bind with (b := ptr + 64 * (l - i)).
  { apply goes_neon_inner; lia. } { lia. }
  intros [[i' ptr'] t] E. cbn [fst] in E. injection E as -> ->.
  destruct (Z.ltb_spec l iters) as [C|C].
  - replace (ptr + 64 * (iters - i)) with (ptr + 64 * (l - i) + 64 * (iters - l)) by ring. apply IH; lia.
  - replace l with iters by lia. apply goes_ret; reflexivity.
Qed.

Lemma goes_neon : forall a size, 0 <= size -> lo <= a -> a + size <= hi ->
  goes (CountTraceModel.popcnt_neon true a size) a (a + size) (fun _ => True).
Proof.
  intros a size Hs H1 H2. unfold CountTraceModel.popcnt_neon.
  pose proof (Z.div_mod size 64 ltac:(lia)) as D64. pose proof (Z.mod_pos_bound size 64 ltac:(lia)) as B64.
  assert (P : exists p z, p + z = a + size /\ a <= p /\ 0 <= z /\
    goes (if 64 <=? size then
       let iters := size / 64 in
       tbind (CountTraceModel.neon_outer (S (Z.to_nat (iters / 31))) iters 0 a [0; 0])
         (fun '(ptr, sum) => CountTraceModel.ret (ptr, size mod 64,
           wrap 64 (wrap 64 (0 + nth 0 sum 0) + nth 1 sum 0)))
     else CountTraceModel.ret (a, size, 0)) a p (fun x => fst x = (p, z))).
  { destruct (Z.leb_spec 64 size) as [C|C].
    - assert (Q : 1 <= size / 64) by (apply Z.div_le_lower_bound; lia).
      exists (a + 64 * (size / 64)), (size mod 64). split; [lia|]. split; [lia|]. split; [lia|]. cbv zeta.
      pose proof (Z.div_mod (size / 64) 31 ltac:(lia)) as D. pose proof (Z.mod_pos_bound (size / 64) 31 ltac:(lia)) as B.
      assert (0 <= size / 64 / 31) by (apply Z.div_pos; lia).
      eapply goes_bind with (b := a + 64 * (size / 64 - 0)).
      { apply goes_neon_outer; lia. } { lia. }
      intros [ptr sum] E. cbn [fst] in E. apply goes_ret; [lia|]. cbn [fst]. f_equal. lia.
    - exists a, size. split; [lia|]. split; [lia|]. split; [lia|]. apply goes_ret; reflexivity. }
  destruct P as (p & z & E1 & E2 & E3 & G). eapply goes_bind; [exact G|lia|].
  intros [[p' z'] cnt] E. cbn [fst] in E. injection E as -> ->. cbv zeta.
  pose proof (Z.div_mod z 8 ltac:(lia)) as D. pose proof (Z.mod_pos_bound z 8 ltac:(lia)) as B.
  assert (D0 : 0 <= z / 8) by (apply Z.div_pos; lia).
  eapply goes_bind with (b := p + (z - z mod 8)).
  { rewrite <- (Z.add_0_r p) at 2. apply goes_words; try lia.
    replace (z - z mod 8 - 0) with (z / 8 * 8) by lia. apply Z.mod_mul. lia. }
  { lia. }
  intros [i cnt2] E. cbn [fst] in E. subst i.
  destruct (Z.ltb_spec (z - z mod 8) z) as [C|C]; [|apply goes_ret; auto; lia].
  eapply goes_bind with (b := a + size) (P := fun _ => True).
  { apply goes_load; auto; lia. } { lia. }
  intros x _. apply goes_ret; auto.
Qed.

Lemma goes_words_to : forall pop a f limit i cnt k, 0 <= k <= Z.of_nat f ->
  (k = 0 -> limit <= i) -> (0 < k -> limit <= i + 8 * k < limit + 8) -> lo <= a + i ->
  a + i + 8 * k <= hi ->
  goes (CountTraceModel.pop_words pop a f limit i cnt) (a + i) (a + i + 8 * k) (fun x => fst x = i + 8 * k).
Proof.
  induction f as [|f IH]; intros limit i cnt k Hk K0 K1 H1 H2; cbn [CountTraceModel.pop_words].
  - destruct (Z.leb_spec limit i) as [C|C]; [|lia]. apply goes_ret; cbn [fst]; lia.
  - destruct (Z.leb_spec limit i) as [C|C]; [apply goes_ret; cbn [fst]; lia|].
    eapply goes_bind with (b := a + (i + 8)) (P := fun _ => True).
    { apply goes_load; auto; lia. } { lia. }
    intros x _. replace (a + i + 8 * k) with (a + (i + 8) + 8 * (k - 1)) by lia.
    replace (i + 8 * k) with (i + 8 + 8 * (k - 1)) by lia. apply IH; lia.
Qed.

Lemma goes_align : forall a f i cnt j, i <= j -> j - i <= Z.of_nat f -> (a + j) mod 8 = 0 ->
  j - i < 8 -> lo <= a + i -> a + j <= hi ->
  goes (CountTraceModel.pop_align a f i cnt) (a + i) (a + j) (fun x => fst x = j).
Proof.
  induction f as [|f IH]; intros i cnt j Hi Hf Hj Hl H1 H2; cbn [CountTraceModel.pop_align].
  - replace i with j by lia. destruct (Z.eqb_spec ((a + j) mod 8) 0) as [C|C]; [|lia]. apply goes_ret; reflexivity.
  - destruct (Z.eqb_spec ((a + i) mod 8) 0) as [C|C].
    { assert (i = j); [|subst; apply goes_ret; reflexivity].
      apply Z.div_exact in C, Hj; lia. }
    assert (i < j).
    { destruct (Z.eq_dec i j) as [-> |N]; [contradiction|lia]. }
    eapply goes_bind with (b := a + (i + 1)) (P := fun _ => True).
    { apply goes_load; auto; lia. } { lia. }
    intros x _. apply IH; auto; lia.
Qed.

(** The prologue and the words after it. *)
Lemma goes_align_words : forall a f size c0, 8 <= size -> size / 8 <= Z.of_nat f ->
  (- a) mod 8 <= size mod 8 -> lo <= a -> a + size <= hi ->
  goes (tbind (CountTraceModel.pop_align a 8 0 c0)
    (fun '(i, cnt) => CountTraceModel.pop_words popcnt64 a f (size - size mod 8) i cnt))
    a (a + (size - size mod 8 + (- a) mod 8)) (fun x => fst x = size - size mod 8 + (- a) mod 8).
Proof.
  intros a f size c0 Hs Hf Hg H1 H2.
  pose proof (Z.div_mod size 8 ltac:(lia)) as D. pose proof (Z.mod_pos_bound size 8 ltac:(lia)) as B.
  pose proof (Z.mod_pos_bound (- a) 8 ltac:(lia)) as B2. pose proof (Z.div_mod (- a) 8 ltac:(lia)) as D2.
  assert (Q : 1 <= size / 8) by (apply Z.div_le_lower_bound; lia).
  eapply goes_bind with (b := a + (- a) mod 8).
  { rewrite <- (Z.add_0_r a) at 2. apply goes_align; try lia.
    replace (a + (- a) mod 8) with ((- ((- a) / 8)) * 8) by lia. apply Z.mod_mul. lia. }
  { lia. }
  intros [i cnt] E. cbn [fst] in E. subst i.
  replace (a + (size - size mod 8 + (- a) mod 8)) with (a + (- a) mod 8 + 8 * (size / 8)) by lia.
  replace (size - size mod 8 + (- a) mod 8) with ((- a) mod 8 + 8 * (size / 8)) by lia.
  apply goes_words_to; lia.
Qed.

Lemma goes_generic : forall a size, 0 <= size -> size < 8 \/ (- a) mod 8 <= size mod 8 -> lo <= a ->
  a + size <= hi -> goes (CountTraceModel.popcnt_generic a size) a (a + size) (fun _ => True).
Proof.
  intros a size Hs Hg H1 H2. unfold CountTraceModel.popcnt_generic.
  pose proof (Z.div_mod size 8 ltac:(lia)) as D. pose proof (Z.mod_pos_bound size 8 ltac:(lia)) as B.
  assert (D0 : 0 <= size / 8) by (apply Z.div_pos; lia).
  pose proof (Z.mod_pos_bound (- a) 8 ltac:(lia)) as B2.
  destruct (Z.leb_spec 8 size) as [C|C].
  - eapply goes_bind with (b := a + (size - size mod 8 + (- a) mod 8)).
    { apply goes_align_words; lia. } { lia. }
    intros [i cnt] E. cbn [fst] in E. subst i. apply goes_bytes; lia.
  - eapply goes_bind with (b := a) (P := fun x => fst x = 0); [apply goes_ret; reflexivity|lia|].
    intros [i cnt] E. cbn [fst] in E. subst i. rewrite <- (Z.add_0_r a) at 2. apply goes_bytes; lia.
Qed.

Lemma goes_neon_any : forall u a size, 0 <= size ->
  u = true \/ size mod 64 < 8 \/ (- a) mod 8 <= size mod 8 -> lo <= a -> a + size <= hi ->
  goes (CountTraceModel.popcnt_neon u a size) a (a + size) (fun _ => True).
Proof.
  intros u a size Hs Hu H1 H2. destruct u; [apply goes_neon; assumption|].
  unfold CountTraceModel.popcnt_neon.
  pose proof (Z.div_mod size 64 ltac:(lia)) as D64. pose proof (Z.mod_pos_bound size 64 ltac:(lia)) as B64.
  pose proof (Z.div_mod size 8 ltac:(lia)) as D8. pose proof (Z.mod_pos_bound size 8 ltac:(lia)) as B8.
  assert (Q : 0 <= size / 64) by (apply Z.div_pos; lia).
  assert (P : goes (if 64 <=? size then
       let iters := size / 64 in
       tbind (CountTraceModel.neon_outer (S (Z.to_nat (iters / 31))) iters 0 a [0; 0])
         (fun '(ptr, sum) => CountTraceModel.ret (ptr, size mod 64,
           wrap 64 (wrap 64 (0 + nth 0 sum 0) + nth 1 sum 0)))
     else CountTraceModel.ret (a, size, 0)) a (a + 64 * (size / 64))
       (fun x => fst x = (a + 64 * (size / 64), size mod 64))).
  { destruct (Z.leb_spec 64 size) as [C|C].
    - assert (1 <= size / 64) by (apply Z.div_le_lower_bound; lia). cbv zeta.
      pose proof (Z.div_mod (size / 64) 31 ltac:(lia)) as D. pose proof (Z.mod_pos_bound (size / 64) 31 ltac:(lia)) as B.
      assert (0 <= size / 64 / 31) by (apply Z.div_pos; lia).
      eapply goes_bind with (b := a + 64 * (size / 64 - 0)).
      { apply goes_neon_outer; lia. } { lia. }
      intros [ptr sum] E. cbn [fst] in E. apply goes_ret; [lia|]. cbn [fst]. f_equal. lia.
    - rewrite (Z.div_small size), (Z.mod_small size) by lia. apply goes_ret; [lia|]. cbn [fst]. f_equal. lia. }
  eapply goes_bind; [exact P|lia|]. clear P.
  intros [[p z] cnt] E. cbn [fst] in E. injection E as -> ->. cbv zeta.
  assert (Mz : (size mod 64) mod 8 = size mod 8).
  { rewrite D64 at 2. replace (64 * (size / 64) + size mod 64) with (size mod 64 + 8 * (size / 64) * 8) by ring.
    rewrite Z.mod_add by lia. reflexivity. }
  set (z := size mod 64) in *. set (q := a + 64 * (size / 64)) in *.
  assert (Mq : (- q) mod 8 = (- a) mod 8).
  { unfold q. replace (- (a + 64 * (size / 64))) with (- a + (- 8 * (size / 64)) * 8) by ring.
    apply Z.mod_add. lia. }
  pose proof (Z.div_mod z 8 ltac:(lia)) as Dz. assert (D0 : 0 <= z / 8) by (apply Z.div_pos; lia).
  pose proof (Z.mod_pos_bound (- a) 8 ltac:(lia)) as B2.
  assert (R : exists j, 0 <= j <= z /\ goes (if 8 <=? z then
       tbind (CountTraceModel.pop_align q 8 0 cnt)
         (fun '(i, cnt) => CountTraceModel.pop_words popcnt64 q (S (Z.to_nat (z / 8))) (z - z mod 8) i cnt)
     else CountTraceModel.ret (0, cnt)) q (q + j) (fun x => fst x = j)).
  { destruct (Z.leb_spec 8 z) as [C|C].
    - exists (z - z mod 8 + (- q) mod 8). split; [lia|]. apply goes_align_words; try lia.
    - exists 0. split; [lia|]. apply goes_ret; [lia|reflexivity]. }
  destruct R as (j & Hj & R). eapply goes_bind; [exact R|lia|].
  intros [i cnt2] E. cbn [fst] in E. subst i.
  destruct (Z.ltb_spec j z) as [C|C]; [|apply goes_ret; auto; lia].
  eapply goes_bind with (b := a + size) (P := fun _ => True).
  { apply goes_load; auto; lia. } { lia. }
  intros x _. apply goes_ret; auto.
Qed.

Lemma goes_popcnt : forall t a size, keeps_inside t a size -> 0 <= size -> lo <= a ->
  a + size <= hi -> goes (CountTraceModel.popcnt t a size) a (a + size) (fun _ => True).
Proof.
  intros [c|[|]|] a size Ht H1 H2 H3; cbn [keeps_inside] in Ht; cbn [CountTraceModel.popcnt].
  - apply goes_x86; assumption.
  - apply goes_neon; assumption.
  - apply goes_neon_any; auto.
  - apply goes_generic; assumption.
Qed.

(** The same of a thread that may fail, if it does not. *)
Definition partly {A} (t : thread A) (a b : Z) (Q : A -> Prop) : Prop :=
  forall x m', alone t rd = Ok (x, m') ->
    m' = rd /\ (read_at t rd = from_to a b /\ writes t rd = 0) /\ Q x.

Lemma partly_goes : forall A (t : thread A) a b (Q : A -> Prop), goes t a b Q -> partly t a b Q.
Proof.
  intros A t a b Q (x & E & R & H) y m' E'. rewrite E in E'. injection E' as <- <-. auto.
Qed.

Lemma partly_bind : forall A B (t : thread A) (f : A -> thread B) a b c (P : A -> Prop) (Q : B -> Prop),
  partly t a b P -> a <= b <= c -> (forall x, P x -> partly (f x) b c Q) -> partly (tbind t f) a c Q.
Proof.
  intros A B t f a b c P Q H Hab K y m2 E. rewrite tbind_alone in E. unfold bind in E.
  rewrite read_at_bind, writes_bind. destruct (alone t rd) as [[x m1]| | | |] eqn:E1; try discriminate E.
  destruct (H x m1 E1) as (-> & (R1 & W1) & Px). destruct (K x Px y m2 E) as (-> & (R2 & W2) & Qy).
  rewrite R1, R2, W1, W2. split; [reflexivity|]. split; [|exact Qy]. split; [|reflexivity].
  apply (from_to_app (Z.to_nat (b - a))); lia.
Qed.

Lemma partly_lift : forall A (r : res A) a b (Q : A -> Prop), a = b -> (forall x, Q x) ->
  partly (CountTraceModel.lift r) a b Q.
Proof.
  intros A r a b Q -> HQ x m' E. destruct r; cbn in E; try discriminate E. injection E as <- <-.
  cbn. rewrite from_to_nil. auto.
Qed.

Lemma partly_ret : forall A (x : A) a b (Q : A -> Prop), a = b -> Q x -> partly (CountTraceModel.ret x) a b Q.
Proof. intros. apply partly_goes, goes_ret; assumption. Qed.

Lemma partly_count : forall t p w first last v e,
  (let it := if ip first =? 0 then ib first else ib first + 1 in
   ib first <> ib last -> keeps_inside t (it * (w / 8)) (w / 8 * (ib last - it))) ->
  8 <= w -> valid_it w first -> valid_it w last -> addr w first < addr w last ->
  e = (addr w last - 1) / w + 1 -> lo = ib first * (w / 8) -> hi = e * (w / 8) ->
  partly (CountTraceModel.count t p w first last v) lo hi (fun _ => True).
Proof.
  intros t p w first last v e Ht W Vf Vl Hlt He Hlo Hhi.
  unfold valid_it, addr in *. set (B := w / 8) in *.
  assert (HB : 1 <= B) by (apply Z.div_le_lower_bound; lia).
  assert (Ee : e = if ip last =? 0 then ib last else ib last + 1).
  { subst e. destruct (Z.eqb_spec (ip last) 0) as [C|C].
    - assert ((ib last * w + ip last - 1) / w = ib last - 1); [|lia].
      symmetry. apply Z.div_unique with (w - 1); lia.
    - assert ((ib last * w + ip last - 1) / w = ib last); [|lia].
      symmetry. apply Z.div_unique with (ip last - 1); lia. }
  clear He.
  assert (Hfl : ib first <= ib last) by nia.
  assert (Hfe : ib first < e) by (destruct (Z.eqb_spec (ip last) 0); nia).
  assert (Hle : lo <= hi) by (rewrite Hlo, Hhi; apply Z.mul_le_mono_nonneg_r; lia).
  assert (LD : forall a, ib first <= a < e -> partly (CountTraceModel.load w a) (a * B) ((a + 1) * B) (fun _ => True)).
  { intros a Ha. apply partly_goes. unfold CountTraceModel.load. fold B. apply goes_load; auto; try lia; nia. }
  unfold CountTraceModel.count. fold B.
  eapply partly_bind with (b := lo) (P := fun _ => True); [apply partly_lift; auto|lia|]. intros _ _.
  eapply partly_bind with (b := hi) (P := fun _ => True).
  2: { lia. }
  2: { intros x _. destruct (negb v).
       - eapply partly_bind with (b := hi) (P := fun _ => True); [apply partly_lift; auto|lia|].
         intros d _. apply partly_ret; auto.
       - apply partly_ret; auto. }
  destruct (Z.eqb_spec (ib first) (ib last)) as [C|C]; cbn [negb].
  - assert (e = ib first + 1) by (destruct (Z.eqb_spec (ip last) 0); nia).
    eapply partly_bind with (b := hi) (P := fun _ => True).
    { rewrite Hlo, Hhi. replace e with (ib first + 1) by lia. apply LD. lia. } { nia. }
    intros x _. eapply partly_bind with (b := hi) (P := fun _ => True); [apply partly_lift; auto|lia|].
    intros y _. apply partly_ret; auto.
  - set (it := if ip first =? 0 then ib first else ib first + 1).
    assert (Hit : ib first <= it <= ib last) by (unfold it; destruct (ip first =? 0); lia).
    assert (He' : ib last <= e) by (destruct (ip last =? 0); lia).
    eapply partly_bind with (b := it * B) (P := fun x => snd x = it).
    { unfold it. destruct (Z.eqb_spec (ip first) 0) as [Z0|Z0]; cbn [negb].
      - apply partly_ret; [exact Hlo|reflexivity].
      - rewrite Hlo. eapply partly_bind with (b := (ib first + 1) * B) (P := fun _ => True); [apply LD; lia|nia|].
        intros x _. eapply partly_bind with (b := (ib first + 1) * B) (P := fun _ => True);
          [apply partly_lift; auto|lia|]. intros y _. apply partly_ret; reflexivity. }
    { nia. }
    intros [r i] Ei. cbn [snd] in Ei. subst i.
    eapply partly_bind with (b := ib last * B) (P := fun _ => True).
    { apply partly_goes. replace (ib last * B) with (it * B + B * (ib last - it)) by ring.
      apply goes_popcnt; [exact (Ht C)|nia..]. }
    { nia. }
    intros c _. cbv zeta. destruct (Z.eqb_spec (ip last) 0) as [Z0|Z0]; cbn [negb].
    + apply partly_ret; [|exact I]. rewrite Hhi, Ee. reflexivity.
    + rewrite Hhi, Ee. eapply partly_bind with (b := (ib last + 1) * B) (P := fun _ => True); [apply LD; lia|nia|].
      intros x _. eapply partly_bind with (b := (ib last + 1) * B) (P := fun _ => True);
        [apply partly_lift; auto|lia|]. intros y _. apply partly_ret; auto.
Qed.
End Reads.

Lemma popcnt_reads_ok : forall t rd a size, keeps_inside t a size -> 0 <= size ->
  (forall b, a <= b < a + size -> rd b <> None) ->
  alone (CountTraceModel.popcnt t a size) rd = lift (popcnt t rd a size) rd /\
  read_at (CountTraceModel.popcnt t a size) rd = from_to a (a + size) /\
  writes (CountTraceModel.popcnt t a size) rd = 0.
Proof.
  intros t rd a size Ht Hs Mp. split; [apply ar_popcnt|].
  destruct (goes_popcnt rd a (a + size) Mp t a size Ht Hs ltac:(lia) ltac:(lia)) as (x & _ & R & _).
  exact R.
Qed.

Lemma count_reads_ok : forall t p w m first last b,
  (let it := if ip first =? 0 then ib first else ib first + 1 in
   ib first <> ib last -> keeps_inside t (it * (w / 8)) (w / 8 * (ib last - it))) ->
  valid_w w -> wf_mem w m -> good_range w m first last -> addr w first < addr w last ->
  read_at (CountTraceModel.count t p w first last b) (byte_view w m) =
    from_to (ib first * (w / 8)) (((addr w last - 1) / w + 1) * (w / 8)) /\
  writes (CountTraceModel.count t p w first last b) (byte_view w m) = 0.
Proof.
  intros t p w m first last b Ht Vw Wf (Hf & Hl & Hd & Mp) Hlt. pose proof (valid_pos w Vw) as Pw.
  assert (E : exists x, count t p w first last b m = Ok (x, m)).
  { pose proof (wp_count t p w first last b m (fun _ m' => m' = m) Vw Hf Hl Wf) as Q. cbv zeta in Q.
    unfold max_bits in Hd. specialize (Q (fun N => Ht N) ltac:(lia) Mp ltac:(lia) eq_refl).
    unfold wp in Q. destruct (count t p w first last b m) as [[x m']| | | |]; try contradiction.
    exists x. rewrite Q. reflexivity. }
  destruct E as (x & E). destruct (count_same_ok t p w m first last b Vw Wf) as (r & E1 & E2).
  rewrite E in E2. destruct r as [y| | | |]; cbn [lift] in E1, E2; try discriminate E2.
  assert (W8 : 1 <= w / 8) by (apply Z.div_le_lower_bound; lia).
  apply (fun H => proj1 (proj2 (partly_count (byte_view w m) (ib first * (w / 8))
    (((addr w last - 1) / w + 1) * (w / 8)) H t p w first last b _ Ht ltac:(lia) Hf Hl Hlt eq_refl eq_refl eq_refl
    y (byte_view w m) E1))).
  intros k Hk. unfold byte_view.
  assert (Ha : ib first <= k / (w / 8) <= (addr w last - 1) / w).
  { split; [apply Z.div_le_lower_bound; lia|].
    assert (k / (w / 8) < (addr w last - 1) / w + 1); [apply Z.div_lt_upper_bound; lia|lia]. }
  set (a := k / (w / 8)) in *. unfold valid_it in Hf, Hl.
  assert (N : m a <> None).
  { destruct (Z.leb_spec (addr w first) (a * w)) as [C|C].
    - rewrite <- (Z.div_mul a w) by lia. apply Mp. split; [exact C|].
      pose proof (Z.mul_div_le (addr w last - 1) w ltac:(lia)). nia.
    - assert (addr w first / w = a).
      { symmetry. apply Z.div_unique with (addr w first - a * w); [|lia]. unfold addr in *. nia. }
      rewrite <- H. apply Mp. lia. }
  destruct (m a); [discriminate|contradiction].
Qed.
