(** Proofs about libpopcnt.h: population count of an array of bytes. *)
From Coq Require Import ZArith Bool List Lia.
From Coq Require Import ZifyBool.
From Verif Require Import Base WordOps IterModel PopcntModel Spec ProofBase ProofIter
  ProofWord ProofCnt.
Import ListNotations.
Open Scope Z_scope.
Ltac Zify.zify_post_hook ::= Z.div_mod_to_equations.

(** ** popcount64: numbers as lists of bytes *)

Fixpoint num (l : list Z) : Z :=
  match l with [] => 0 | b :: l' => b + 256 * num l' end.

Definition bytes (l : list Z) : Prop := Forall (fun b => 0 <= b < 256) l.

Lemma byte_split_testbit : forall b x k, 0 <= b < 256 -> 0 <= k ->
  Z.testbit (b + 256 * x) k = if k <? 8 then Z.testbit b k else Z.testbit x (k - 8).
Proof.
  intros b x k Hb Hk.
  replace (256 * x) with (Z.shiftl x 8) by (rewrite Z.shiftl_mul_pow2 by lia; lia).
  rewrite Z.add_nocarry_lxor.
  - rewrite Z.lxor_spec, Z.shiftl_spec by lia. destruct (Z.ltb_spec k 8).
    + rewrite (Z.testbit_neg_r x) by lia. apply xorb_false_r.
    + rewrite (testbit_high 8 b) by lia. apply xorb_false_l.
  - apply Z.bits_inj'. intros i Hi. rewrite Z.land_spec, Z.shiftl_spec, Z.bits_0 by lia.
    destruct (Z.lt_ge_cases i 8).
    + rewrite (Z.testbit_neg_r x) by lia. apply andb_false_r.
    + rewrite (testbit_high 8 b) by lia. reflexivity.
Qed.

Lemma land_split : forall b x c y, 0 <= b < 256 -> 0 <= c < 256 ->
  Z.land (b + 256 * x) (c + 256 * y) = Z.land b c + 256 * Z.land x y.
Proof.
  intros b x c y Hb Hc. apply Z.bits_inj'. intros k Hk.
  rewrite Z.land_spec, !byte_split_testbit by
    (try assumption; change 256 with (2 ^ 8); apply land_range; lia).
  rewrite !Z.land_spec. destruct (k <? 8); reflexivity.
Qed.

Lemma num_land : forall l c, bytes l -> 0 <= c < 256 ->
  Z.land (num l) (num (repeat c (length l))) = num (map (fun b => Z.land b c) l).
Proof.
  intros l c H Hc. induction H as [|b l Hb _ IH]; [reflexivity|].
  cbn [num length repeat map]. rewrite land_split, IH by assumption. reflexivity.
Qed.

(** A shift by [s] followed by a mask that keeps only bits below [8 - s]. *)
Lemma num_shr_land : forall l s c, bytes l -> 0 <= s <= 8 -> 0 <= c < 2 ^ (8 - s) ->
  Z.land (Z.shiftr (num l) s) (num (repeat c (length l))) =
  num (map (fun b => Z.land (Z.shiftr b s) c) l).
Proof.
  intros l s c H Hs Hc.
  assert (Hc8 : 0 <= c < 256).
  { assert (2 ^ (8 - s) <= 2 ^ 8) by (apply Z.pow_le_mono_r; lia). lia. }
  induction H as [|b l Hb _ IH].
  - cbn. rewrite Z.land_0_r. reflexivity.
  - cbn [num length repeat map]. rewrite <- IH.
    assert (Hb8 : 0 <= Z.land (Z.shiftr b s) c < 256).
    { rewrite Z.land_comm. apply (land_range 8); lia. }
    apply Z.bits_inj'. intros k Hk.
    rewrite Z.land_spec, Z.shiftr_spec, !byte_split_testbit by (lia || assumption).
    rewrite !Z.land_spec, !Z.shiftr_spec by lia.
    destruct (Z.ltb_spec k 8).
    + destruct (Z.ltb_spec (k + s) 8); [reflexivity|].
      rewrite (testbit_high (8 - s) c) by lia. rewrite !andb_false_r. reflexivity.
    + destruct (Z.ltb_spec (k + s) 8); [lia|].
      rewrite Z.shiftr_spec by lia. f_equal. f_equal. lia.
Qed.

Lemma num_sub : forall l f, num l - num (map f l) = num (map (fun b => b - f b) l).
Proof.
  intros l f. induction l as [|b l IH]; [reflexivity|]. cbn [num map]. lia.
Qed.

Lemma num_add : forall (l : list Z) f g,
  num (map f l) + num (map g l) = num (map (fun b => f b + g b) l).
Proof.
  intros l f g. induction l as [|b l IH]; [reflexivity|]. cbn [num map]. lia.
Qed.

Lemma num_range : forall l, bytes l -> 0 <= num l < 2 ^ (8 * Z.of_nat (length l)).
Proof.
  intros l H. induction H as [|b l Hb _ IH]; cbn [num length]; [cbn; lia|].
  replace (8 * Z.of_nat (S (length l))) with (8 + 8 * Z.of_nat (length l)) by lia.
  rewrite Z.pow_add_r by lia. change (2 ^ 8) with 256. nia.
Qed.

(** Bytes whose nibbles are at most 4. *)
Definition nib4 (b : Z) : Prop := 0 <= b / 16 <= 4 /\ 0 <= b mod 16 <= 4.

Lemma nib4_shr : forall b h, nib4 b -> 0 <= h ->
  Z.shiftr (b + 256 * h) 4 = (b / 16 + 16 * (h mod 16)) + 256 * Z.shiftr h 4.
Proof.
  intros b h [Hb1 Hb2] Hh. rewrite !Z.shiftr_div_pow2 by lia.
  change (2 ^ 4) with 16. lia.
Qed.

Lemma land15 : forall x, Z.land x 15 = x mod 16.
Proof. intros x. change 15 with (Z.ones 4). rewrite Z.land_ones by lia. reflexivity. Qed.

Lemma num_fold4 : forall l, Forall nib4 l ->
  Z.land (num l + Z.shiftr (num l) 4) (num (repeat 15 (length l))) =
  num (map (fun b => b / 16 + b mod 16) l) /\
  0 <= num l /\ num l mod 16 <= 4.
Proof.
  intros l H. induction H as [|b l Hb _ IH]; [cbn; lia|].
  destruct IH as (IH & Hn & Hm). pose proof Hb as [Hb1 Hb2].
  cbn [num length repeat map]. split; [|lia].
  rewrite nib4_shr by assumption.
  replace (b + 256 * num l + (b / 16 + 16 * (num l mod 16) + 256 * Z.shiftr (num l) 4))
    with ((b + b / 16 + 16 * (num l mod 16)) + 256 * (num l + Z.shiftr (num l) 4)) by lia.
  rewrite land_split by lia. rewrite IH, land15. f_equal. lia.
Qed.

Lemma nib4_small : forall l, Forall nib4 l -> length l = 8%nat -> num l < 2 ^ 63.
Proof.
  intros l H Hl.
  assert (H' : Forall (fun b => 0 <= b <= 68) l).
  { eapply Forall_impl; [|exact H]. intros b [H1 H2]. lia. }
  clear H.
  destruct l as [|b0 [|b1 [|b2 [|b3 [|b4 [|b5 [|b6 [|b7 [|]]]]]]]]]; try discriminate Hl.
  cbn [num].
  repeat match goal with H : Forall _ (_ :: _) |- _ => inversion H; subst; clear H end.
  lia.
Qed.

(** The product with 0x0101...01 sums the bytes into the top byte. *)
Lemma mul_h01 : forall l, Forall (fun b => 0 <= b <= 8) l -> length l = 8%nat ->
  Z.shiftr (wrap 64 (num l * num (repeat 1 8))) 56 = fold_right Z.add 0 l.
Proof.
  intros l H Hl.
  destruct l as [|b0 [|b1 [|b2 [|b3 [|b4 [|b5 [|b6 [|b7 [|]]]]]]]]]; try discriminate Hl.
  repeat match goal with H : Forall _ (_ :: _) |- _ => inversion H; subst; clear H end.
  rewrite Z.shiftr_div_pow2 by lia. cbn [num fold_right repeat]. unfold wrap.
  set (hi := b1 + b2 + b3 + b4 + b5 + b6 + b7 + 256 * (b2 + b3 + b4 + b5 + b6 + b7
    + 256 * (b3 + b4 + b5 + b6 + b7 + 256 * (b4 + b5 + b6 + b7 + 256 *
    (b5 + b6 + b7 + 256 * (b6 + b7 + 256 * b7)))))).
  set (lo := b0 + 256 * (b0 + b1 + 256 * (b0 + b1 + b2 + 256 * (b0 + b1 + b2 + b3
    + 256 * (b0 + b1 + b2 + b3 + b4 + 256 * (b0 + b1 + b2 + b3 + b4 + b5 + 256 *
    (b0 + b1 + b2 + b3 + b4 + b5 + b6))))))).
  set (top := b0 + b1 + b2 + b3 + b4 + b5 + b6 + b7).
  match goal with |- ?x mod _ / _ = _ =>
    assert (Ex : x = (lo + 2 ^ 56 * top) + hi * 2 ^ 64)
      by (unfold lo, hi, top; lia) end.
  rewrite Ex, Z.mod_add by lia.
  assert (0 <= lo < 2 ^ 56) by (unfold lo; lia).
  assert (0 <= top <= 64) by (unfold top; lia).
  rewrite Z.mod_small by lia.
  replace (lo + 2 ^ 56 * top) with (lo + top * 2 ^ 56) by lia.
  rewrite Z.div_add, Z.div_small by lia. unfold top. lia.
Qed.

Fixpoint to_bytes (n : nat) (x : Z) : list Z :=
  match n with O => [] | S n' => x mod 256 :: to_bytes n' (x / 256) end.

Lemma to_bytes_num : forall n x, 0 <= x < 2 ^ (8 * Z.of_nat n) ->
  num (to_bytes n x) = x /\ bytes (to_bytes n x) /\ length (to_bytes n x) = n.
Proof.
  induction n as [|n IH]; intros x Hx.
  - cbn in *. split; [lia|]. split; [constructor|reflexivity].
  - replace (8 * Z.of_nat (S n)) with (8 + 8 * Z.of_nat n) in Hx by lia.
    rewrite Z.pow_add_r in Hx by lia. change (2 ^ 8) with 256 in Hx.
    destruct (IH (x / 256)) as (H1 & H2 & H3).
    { split; [apply Z.div_pos; lia|]. apply Z.div_lt_upper_bound; lia. }
    cbn [to_bytes num length]. split; [lia|]. split; [|lia].
    constructor; [lia|assumption].
Qed.

(** Population count of a byte, as a table lookup. *)
Definition pc8 (b : Z) : Z := count_true (Z.testbit b) 0 8.

Lemma count_true_num : forall l, bytes l ->
  count_true (Z.testbit (num l)) 0 (8 * length l) = fold_right Z.add 0 (map pc8 l).
Proof.
  intros l H. induction H as [|b l Hb _ IH]; [reflexivity|].
  cbn [length num map fold_right].
  replace (8 * S (length l))%nat with (8 + 8 * length l)%nat by lia.
  rewrite count_true_app, <- IH. f_equal.
  - apply count_true_ext. intros k Hk. rewrite byte_split_testbit by lia.
    destruct (Z.ltb_spec (0 + k) 8); [reflexivity|lia].
  - apply count_true_ext. intros k Hk. rewrite byte_split_testbit by lia.
    destruct (Z.ltb_spec (0 + Z.of_nat 8 + k) 8); [lia|]. f_equal. lia.
Qed.

(** The bytewise steps of popcount64. *)
Definition s1 (b : Z) : Z := b - Z.land (Z.shiftr b 1) 85.
Definition s2 (b : Z) : Z := Z.land b 51 + Z.land (Z.shiftr b 2) 51.
Definition s3 (b : Z) : Z := b / 16 + b mod 16.

Definition byte_ok (b : Z) : bool :=
  (0 <=? s1 b) && (s1 b <? 256) && (s2 (s1 b) <? 256) &&
  (0 <=? s2 (s1 b) / 16) && (s2 (s1 b) / 16 <=? 4) && (s2 (s1 b) mod 16 <=? 4) &&
  (s3 (s2 (s1 b)) =? pc8 b).

Lemma all_bytes : forall P : Z -> bool,
  forallb P (map Z.of_nat (seq 0 256)) = true ->
  forall b, 0 <= b < 256 -> P b = true.
Proof.
  intros P H b Hb. rewrite forallb_forall in H. apply H.
  apply in_map_iff. exists (Z.to_nat b). split; [lia|]. apply in_seq. lia.
Qed.

Lemma byte_ok_all : forall b, 0 <= b < 256 -> byte_ok b = true.
Proof. apply all_bytes. vm_compute. reflexivity. Qed.

Lemma pc8_range : forall b, 0 <= pc8 b <= 8.
Proof. intros b. apply (count_true_range (Z.testbit b) 8 0). Qed.

Lemma popcount64_count : forall x, 0 <= x < 2 ^ 64 ->
  popcount64 x = count_true (Z.testbit x) 0 64.
Proof.
  intros x Hx. destruct (to_bytes_num 8 x Hx) as (E & Hb & Hl).
  set (l := to_bytes 8 x) in *. clearbody l.
  replace (count_true (Z.testbit x) 0 64) with (fold_right Z.add 0 (map pc8 l))
    by (rewrite <- (count_true_num l Hb), E, Hl; reflexivity).
  unfold popcount64.
  change 6148914691236517205 with (num (repeat 85 8)).
  change 3689348814741910323 with (num (repeat 51 8)).
  change 1085102592571150095 with (num (repeat 15 8)).
  change 72340172838076673 with (num (repeat 1 8)).
  rewrite <- Hl, <- E. clear x Hx E.
  rewrite num_shr_land by (assumption || lia).
  rewrite num_sub. fold s1.
  assert (H1 : bytes (map s1 l)).
  { apply Forall_map. eapply Forall_impl; [|exact Hb]. intros b Hb'.
    pose proof (byte_ok_all b Hb') as H. unfold byte_ok in H. lia. }
  pose proof (num_range _ H1) as R1. rewrite map_length, Hl in R1.
  change (map (fun b : Z => b - Z.land (Z.shiftr b 1) 85) l) with (map s1 l).
  rewrite (wrap_small 64 (num (map s1 l))) by exact R1.
  pose proof (num_land (map s1 l) 51 H1 ltac:(lia)) as L1.
  pose proof (num_shr_land (map s1 l) 2 51 H1 ltac:(lia) ltac:(lia)) as L2.
  rewrite map_length in L1, L2. rewrite L1, L2, num_add. change (map (fun b : Z => Z.land b 51 + Z.land (Z.shiftr b 2) 51))
    with (map s2).
  assert (H2 : Forall nib4 (map s2 (map s1 l))).
  { rewrite map_map. apply Forall_map. eapply Forall_impl; [|exact Hb]. intros b Hb'.
    pose proof (byte_ok_all b Hb') as H. unfold byte_ok in H. unfold nib4. lia. }
  assert (H2b : bytes (map s2 (map s1 l))).
  { eapply Forall_impl; [|exact H2]. intros b [Hb1 Hb2]. lia. }
  pose proof (num_range _ H2b) as R2. rewrite !map_length, Hl in R2.
  rewrite (wrap_small 64 (num (map s2 (map s1 l)))) by exact R2.
  rewrite (wrap_small 64 (num _ + _)).
  2:{ rewrite Z.shiftr_div_pow2 by lia. change (8 * Z.of_nat 8) with 64 in R2.
      change (2 ^ 4) with 16.
      assert (H63 : num (map s2 (map s1 l)) < 2 ^ 63).
      { apply nib4_small; [exact H2|]. rewrite !map_length. exact Hl. }
      clear - R2 H63. lia. }
  replace (length l) with (length (map s2 (map s1 l))) by (rewrite !map_length; reflexivity).
  rewrite (proj1 (num_fold4 _ H2)). rewrite !map_map.
  assert (E : map (fun x => s2 (s1 x) / 16 + s2 (s1 x) mod 16) l = map pc8 l).
  { apply map_ext_in. intros b Hin. unfold bytes in Hb. rewrite Forall_forall in Hb.
    pose proof (byte_ok_all b (Hb b Hin)) as H. unfold byte_ok, s3 in H. lia. }
  rewrite E, !map_length, Hl. apply mul_h01.
  - apply Forall_map, Forall_forall. intros b _. apply pc8_range.
  - rewrite map_length. exact Hl.
Qed.

(** Set bits among the lowest [n] bits of [v]. *)
Definition cnt (v : Z) (n : nat) : Z := count_true (Z.testbit v) 0 n.

(** The 16-bit lanes of popcnt512, byte by byte. *)
Lemma lane_lo : forall a b, 0 <= a < 256 -> lane 8 0 (a + 256 * b) = a.
Proof.
  intros a b Ha. unfold lane. change (2 ^ (8 * 0)) with 1. change (2 ^ 8) with 256. lia.
Qed.

Lemma lane_hi : forall a b, 0 <= a < 256 -> 0 <= b < 256 -> lane 8 1 (a + 256 * b) = b.
Proof.
  intros a b Ha Hb. unfold lane. change (2 ^ (8 * 1)) with 256.
  change (2 ^ 8) with 256. lia.
Qed.

Lemma shr_land_pair : forall a b s c, 0 <= a < 256 -> 0 <= b < 256 -> 0 <= s <= 8 ->
  0 <= c < 2 ^ (8 - s) ->
  Z.land (Z.shiftr (a + 256 * b) s) (c + 256 * c) =
  Z.land (Z.shiftr a s) c + 256 * Z.land (Z.shiftr b s) c.
Proof.
  intros a b s c Ha Hb Hs Hc.
  assert (Hl : bytes [a; b]) by (repeat constructor; lia).
  pose proof (num_shr_land [a; b] s c Hl Hs Hc) as H.
  cbn [num length repeat map] in H. rewrite !Z.mul_0_r, !Z.add_0_r in H. exact H.
Qed.

Lemma land_byte : forall x c, 0 <= c < 256 -> 0 <= Z.land x c < 256.
Proof.
  intros x c Hc. rewrite Z.land_comm. change 256 with (2 ^ 8). apply land_range; [lia|exact Hc].
Qed.

Lemma sub_pair : forall a b c d, 0 <= a < 256 -> 0 <= b < 256 -> 0 <= c < 256 ->
  0 <= d < 256 -> sub_epi8_16 (a + 256 * b) (c + 256 * d) =
  (a - c) mod 256 + 256 * ((b - d) mod 256).
Proof.
  intros. unfold sub_epi8_16. rewrite !lane_lo, !lane_hi by assumption. reflexivity.
Qed.

Lemma add_pair : forall a b c d, 0 <= a < 256 -> 0 <= b < 256 -> 0 <= c < 256 ->
  0 <= d < 256 -> add_epi8_16 (a + 256 * b) (c + 256 * d) =
  (a + c) mod 256 + 256 * ((b + d) mod 256).
Proof.
  intros. unfold add_epi8_16. rewrite !lane_lo, !lane_hi by assumption. reflexivity.
Qed.

Lemma swar16_all : forall a b, 0 <= a < 256 -> 0 <= b < 256 ->
  swar16 (a + 256 * b) = pc8 a + pc8 b.
Proof.
  intros a b Ha Hb. unfold swar16. cbv zeta.
  pose proof (byte_ok_all a Ha) as Ka. pose proof (byte_ok_all b Hb) as Kb.
  unfold byte_ok, s3 in Ka, Kb.
  change 21845 with (85 + 256 * 85). rewrite shr_land_pair by (cbn; lia).
  rewrite sub_pair by (assumption || (apply land_byte; lia)).
  fold (s1 a) (s1 b). rewrite (Z.mod_small (s1 a)), (Z.mod_small (s1 b)) by lia.
  change 13107 with (51 + 256 * 51). rewrite shr_land_pair by (cbn; lia).
  rewrite land_split by lia.
  rewrite add_pair by (apply land_byte; lia).
  fold (s2 (s1 a)) (s2 (s1 b)).
  assert (Xa : 0 <= s2 (s1 a)) by (unfold s2; pose proof (land_byte (s1 a) 51);
    pose proof (land_byte (Z.shiftr (s1 a) 2) 51); lia).
  assert (Xb : 0 <= s2 (s1 b)) by (unfold s2; pose proof (land_byte (s1 b) 51);
    pose proof (land_byte (Z.shiftr (s1 b) 2) 51); lia).
  set (x := s2 (s1 a)) in *. set (y := s2 (s1 b)) in *. clearbody x y.
  rewrite (Z.mod_small x), (Z.mod_small y) by lia.
  assert (Hs : Z.shiftr (x + 256 * y) 4 = (x / 16 + 16 * (y mod 16)) + 256 * (y / 16)).
  { rewrite Z.shiftr_div_pow2 by lia. change (2 ^ 4) with 16. lia. }
  rewrite Hs, add_pair by lia. clear Hs.
  change 3855 with (15 + 256 * 15). rewrite land_split by lia.
  rewrite lane_lo, lane_hi by (apply land_byte; lia).
  rewrite !land15. lia.
Qed.

Lemma swar16_cnt : forall x, 0 <= x < 2 ^ 16 -> swar16 x = cnt x 16.
Proof.
  intros x Hx. replace x with (x mod 256 + 256 * (x / 256)) by lia.
  rewrite swar16_all by lia. unfold cnt.
  pose proof (count_true_num [x mod 256; x / 256]
    ltac:(repeat constructor; lia)) as E.
  cbn [num map fold_right] in E. rewrite Z.mul_0_r, !Z.add_0_r in E.
  symmetry. exact E.
Qed.
