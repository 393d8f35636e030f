(** Constructors, strings, resize and storage sizes of bit_vector. *)
From Coq Require Import ZArith Bool List Lia.
From Verif Require Import Base WordOps IterModel RefModel PopcntModel AlgModel ShiftModel
  Spec SpecRef VecModel SpecVec ProofBase ProofIter ProofReference ProofRef ProofRange
  ProofShift ProofUndefined ProofVec ProofVec2.
Import ListNotations.
Open Scope Z_scope.
Ltac Zify.zify_post_hook ::= idtac.

(** ** at *)

Lemma at_ok : forall p w v pos b, valid_w w -> vec_ok w v -> 0 <= pos < 2 ^ 64 ->
  (pos < vlen v -> vat p w v pos = Ok (get_at pos (vbits w v)) /\
     exists v', vat_set p w v pos b = Ok v' /\ vec_ok w v' /\
       vbits w v' = set_at pos b (vbits w v)) /\
  (vlen v <= pos -> vat p w v pos = Throw /\ vat_set p w v pos b = Throw).
Proof.
  intros p w v pos b Hw V Hp. unfold vat, vat_set.
  destruct (Z.ltb_spec pos (vlen v)) as [C|C].
  - split; [|lia]. intros _. split; [apply vget_ok; (assumption || lia)|].
    pose proof (vset_wp p w v pos b Hw V ltac:(lia)) as H. apply rwp_exists in H. exact H.
  - split; [lia|]. auto.
Qed.

(** ** resize *)

Lemma words_of_vmem : forall ws ext, words_of (length ws) (vmem ws ext) = ws.
Proof.
  intros ws ext. apply (nth_ext _ _ 0 0); rewrite words_of_length; [reflexivity|].
  intros k Hk. rewrite words_of_nth by assumption. unfold vmem, wsize.
  destruct (Z.ltb_spec (Z.of_nat k) 0); [lia|].
  destruct (Z.ltb_spec (Z.of_nat k) (Z.of_nat (length ws))); [|lia].
  rewrite Nat2Z.id. reflexivity.
Qed.

Lemma fill_empty : forall p w it b m, valid_w w -> valid_it w it -> fill p w it it b m = Ok (tt, m).
Proof.
  intros p w it b m Hw Hv. unfold fill, bind, lift.
  rewrite assert_viable_eq, distance_eq by (assumption || lia). cbn [rbind].
  rewrite Z.sub_diag. reflexivity.
Qed.

Lemma resize_val_ignored : forall p w v n b, valid_w w -> 0 <= n <= max_bits ->
  resize_val p w v n b = Ok (resize w v n).
Proof.
  intros p w v n b Hw Hn. pose proof (valid_pos w Hw) as Pw. unfold max_bits in Hn.
  unfold resize_val, resize. destruct (vlen v <? n); [|reflexivity].
  rewrite swrap64_small by lia.
  assert (H := rwp_iadd w vbegin n (fun it => valid_it w it) Hw (begin_valid w ltac:(lia))
    ltac:(lia) (fun _ h _ => h)). apply rwp_exists in H. destruct H as (it & E & Hv).
  unfold on_words, on_words_ext, bind, lift. rewrite E. rewrite fill_empty by assumption.
  cbn [rbind]. rewrite words_of_vmem. reflexivity.
Qed.

Lemma resize_exact : forall w v n, valid_w w -> vec_ok w v -> 0 <= n < 2 ^ 32 ->
  vec_ok w (resize w v n) /\
  vbits w (resize w v n) =
    firstn (Z.to_nat n) (list_bits w (vwords v) ++ repeat false (Z.to_nat n)).
Proof.
  intros w v n Hw (V1 & V2 & V3) Hn. pose proof (valid_pos w Hw) as Pw.
  pose proof (word_count_ok w n Hw Hn) as Hc. unfold resize.
  set (c := word_count w n) in *. assert (0 <= c) by nia.
  assert (Lb : zlen (list_bits w (vwords v)) = Z.of_nat (length (vwords v)) * w)
    by (unfold zlen; rewrite list_bits_length by lia; lia).
  assert (Ll : zlen (firstn (Z.to_nat n) (list_bits w (vwords v) ++ repeat false (Z.to_nat n))) = n).
  { apply zlen_firstn. rewrite zlen_app, zlen_repeat by lia. lia. }
  assert (Gl : forall i, 0 <= i < n ->
    get_at i (firstn (Z.to_nat n) (list_bits w (vwords v) ++ repeat false (Z.to_nat n))) =
    bit w (vmem (vwords v) nomem) i).
  { intros i Hi. rewrite get_firstn by lia. rewrite get_app by lia. rewrite Lb.
    destruct (Z.ltb_spec i (Z.of_nat (length (vwords v)) * w)) as [C|C].
    - apply list_bits_bit; lia.
    - rewrite vmem_bit by lia. destruct (Z.ltb_spec i (Z.of_nat (length (vwords v)) * w)); [lia|].
      apply get_repeat. lia. }
  unfold resize_words, wsize. destruct (Z.leb_spec c (Z.of_nat (length (vwords v)))) as [C|C].
  - assert (V' : vec_ok w (BV (firstn (Z.to_nat c) (vwords v)) n)).
    { split; cbn [vwords vlen]; [apply words_ok_firstn; assumption|].
      rewrite firstn_length.
      replace (Z.of_nat (Nat.min (Z.to_nat c) (length (vwords v)))) with c by lia. nia. }
    split; [exact V'|]. apply vbits_eq; [lia|assumption|assumption|].
    cbn [vwords vlen]. intros i Hi. rewrite bit_cut by nia. symmetry. apply Gl. lia.
  - assert (V' : vec_ok w (BV (vwords v ++ repeat 0 (Z.to_nat (c - Z.of_nat (length (vwords v))))) n)).
    { split; cbn [vwords vlen]; [apply words_ok_app; [assumption|apply words_ok_zeros; lia]|].
      rewrite app_length, repeat_length.
      replace (Z.of_nat (length (vwords v) + Z.to_nat (c - Z.of_nat (length (vwords v))))) with c by lia.
      unfold max_bits. lia. }
    split; [exact V'|]. apply vbits_eq; [lia|assumption|assumption|].
    cbn [vwords vlen]. intros i Hi. rewrite bit_zeros by lia. symmetry. apply Gl. lia.
Qed.

(** Growing appends zeros when nothing is left behind the last bit. *)
Lemma resize_clean : forall w v n, valid_w w -> vec_ok w v -> vlen v <= n < 2 ^ 32 ->
  skipn (Z.to_nat (vlen v)) (list_bits w (vwords v)) =
    repeat false (length (vwords v) * Z.to_nat w - Z.to_nat (vlen v)) ->
  vbits w (resize w v n) = vbits w v ++ repeat false (Z.to_nat (n - vlen v)).
Proof.
  intros w v n Hw V Hn Hc. pose proof (valid_pos w Hw) as Pw. pose proof V as (V1 & V2 & V3).
  destruct (resize_exact w v n Hw V ltac:(lia)) as [_ E]. rewrite E.
  rewrite <- (firstn_skipn (Z.to_nat (vlen v)) (list_bits w (vwords v))) at 1. rewrite Hc.
  fold (vbits w v). rewrite <- app_assoc, <- repeat_app.
  pose proof (vbits_length w v ltac:(lia) V) as Hl.
  rewrite firstn_app.
  replace (length (vbits w v)) with (Z.to_nat (vlen v)) by (unfold zlen in Hl; lia).
  rewrite firstn_all2 by (unfold zlen in Hl; lia). f_equal.
  replace (Z.to_nat n - Z.to_nat (vlen v))%nat with (Z.to_nat (n - vlen v)) by lia.
  assert (Hf : forall k a, (a <= k)%nat -> firstn a (repeat false k) = repeat false a).
  { induction k as [|k IH]; intros [|a] Ha; cbn; try reflexivity; [lia|].
    rewrite IH by lia. reflexivity. }
  apply Hf. lia.
Qed.

(** ** Storage sizes *)

Lemma word_count_iff : forall w n, valid_w w -> 0 <= n < 2 ^ 64 ->
  (n <= word_count w n * w <-> n < 2 ^ 32).
Proof.
  intros w n Hw Hn. pose proof (valid_pos w Hw) as Pw. split.
  - intros H. destruct (Z.ltb_spec n (2 ^ 32)) as [C|C]; [assumption|exfalso].
    unfold word_count, wrap in H.
    pose proof (Z.mod_pos_bound n (2 ^ 32) ltac:(lia)) as Hm.
    pose proof (Z.div_mod n (2 ^ 32) ltac:(lia)) as Hd.
    assert (1 <= n / 2 ^ 32) by (apply Z.div_le_lower_bound; lia).
    pose proof (Z.mul_div_le (n mod 2 ^ 32 + w - 1) w ltac:(lia)). lia.
  - intros C. apply (word_count_ok w n Hw). lia.
Qed.

(** Reading a bit beyond the storage is undefined. *)
Lemma vget_oob : forall p w v i, valid_w w -> 0 <= i < 2 ^ 62 ->
  Z.of_nat (length (vwords v)) * w <= i -> vget p w v i = UB OutOfBounds.
Proof.
  intros p w v i Hw Hi Ho. pose proof (valid_pos w Hw) as Pw. unfold vget.
  rewrite swrap64_small by lia. destruct (iindex_begin p w i Hw Hi) as (r & E & R).
  destruct R as (a & q & Hq & -> & Ea).
  unfold on_words, on_words_ext, bind, lift. rewrite E.
  unfold ref_get, bind, load. cbn [rptr]. unfold vmem, wsize.
  assert (Z.of_nat (length (vwords v)) <= a) by nia.
  destruct (Z.ltb_spec a 0); [lia|].
  destruct (Z.ltb_spec a (Z.of_nat (length (vwords v)))); [lia|]. reflexivity.
Qed.

Lemma count_ctor_short : forall p w n, valid_w w -> 2 ^ 32 <= n < 2 ^ 62 ->
  vsize (ctor_count w n) = n /\ vget p w (ctor_count w n) (n - 1) = UB OutOfBounds.
Proof.
  intros p w n Hw Hn. pose proof (valid_pos w Hw) as Pw. split; [reflexivity|].
  apply vget_oob; [assumption|lia|]. unfold ctor_count. cbn [vwords].
  rewrite repeat_length. pose proof (word_count_iff w n Hw ltac:(lia)) as H.
  assert (0 <= word_count w n).
  { unfold word_count, wrap. pose proof (Z.mod_pos_bound n (2 ^ 32) ltac:(lia)).
    apply Z.div_pos; lia. }
  rewrite Z2Nat.id by assumption. lia.
Qed.

(** ** The float comparison *)

Lemma to_float_tie : forall n, 2 ^ 24 <= n < 2 ^ 27 -> n mod 8 = 0 ->
  to_float n = n /\ to_float (n + 1) = n.
Proof.
  intros n Hn Hm.
  assert (E8 : n = 8 * (n / 8)) by (pose proof (Z.div_mod n 8 ltac:(lia)); lia).
  set (k := n / 8) in *.
  assert (D : exists e, (e = 1 \/ e = 2 \/ e = 3) /\ 2 ^ (e + 23) <= n < 2 ^ (e + 24)).
  { destruct (Z.ltb_spec n (2 ^ 25)); [exists 1; lia|].
    destruct (Z.ltb_spec n (2 ^ 26)); [exists 2; lia|exists 3; lia]. }
  destruct D as (e & De & Hb).
  assert (L0 : Z.log2 n = e + 23) by (apply Z.log2_unique; [lia|replace (Z.succ (e + 23)) with (e + 24) by lia; lia]).
  assert (L1 : Z.log2 (n + 1) = e + 23).
  { apply Z.log2_unique; [lia|]. replace (Z.succ (e + 23)) with (e + 24) by lia.
    destruct De as [->|[->| ->]]; lia. }
  unfold to_float. rewrite L0, L1. replace (e + 23 - 23) with e by lia.
  destruct (Z.ltb_spec n (2 ^ 24)); [lia|]. destruct (Z.ltb_spec (n + 1) (2 ^ 24)); [lia|].
  cbv zeta.
  destruct De as [->|[->| ->]].
  - change (2 ^ (1 - 1)) with 1. change (2 ^ 1) with 2.
    replace n with (4 * k * 2) by lia. rewrite Z.div_mul, Z.mod_mul by lia.
    rewrite Z.div_add_l by lia. rewrite (Z.add_comm (4 * k * 2) 1), Z.mod_add by lia.
    change (1 / 2) with 0. change (1 mod 2) with 1. rewrite Z.add_0_r, Z.even_mul.
    cbn [Z.ltb Z.compare Pos.compare Pos.compare_cont orb Z.even]. lia.
  - change (2 ^ (2 - 1)) with 2. change (2 ^ 2) with 4.
    replace n with (2 * k * 4) by lia. rewrite Z.div_mul, Z.mod_mul by lia.
    rewrite Z.div_add_l by lia. rewrite (Z.add_comm (2 * k * 4) 1), Z.mod_add by lia.
    change (1 / 4) with 0. change (1 mod 4) with 1. rewrite Z.add_0_r.
    cbn [Z.ltb Z.compare Pos.compare Pos.compare_cont]. lia.
  - change (2 ^ (3 - 1)) with 4. change (2 ^ 3) with 8.
    replace n with (k * 8) by lia. rewrite Z.div_mul, Z.mod_mul by lia.
    rewrite Z.div_add_l by lia. rewrite (Z.add_comm (k * 8) 1), Z.mod_add by lia.
    change (1 / 8) with 0. change (1 mod 8) with 1. rewrite Z.add_0_r.
    cbn [Z.ltb Z.compare Pos.compare Pos.compare_cont]. lia.
Qed.

(** A bulk insertion of one bit at the end of a full vector of 2^24 to 2^27 bits
    does not enlarge the storage and writes behind it. *)
Lemma full_no_growth : forall w v, valid_w w -> vlen v = Z.of_nat (length (vwords v)) * w ->
  2 ^ 24 <= vlen v < 2 ^ 27 -> grow w (vwords v) (vlen v + 1) = Ok (vwords v).
Proof.
  intros w v Hw Hf Hn. unfold grow, wsize. rewrite <- Hf. rewrite !wrap_small by lia.
  assert (M8 : vlen v mod 8 = 0).
  { rewrite Hf. destruct Hw as [->|[->|[->|[->| ->]]]].
    - apply Z.mod_mul. lia.
    - replace (Z.of_nat (length (vwords v)) * 16) with (Z.of_nat (length (vwords v)) * 2 * 8) by lia.
      apply Z.mod_mul. lia.
    - replace (Z.of_nat (length (vwords v)) * 32) with (Z.of_nat (length (vwords v)) * 4 * 8) by lia.
      apply Z.mod_mul. lia.
    - replace (Z.of_nat (length (vwords v)) * 64) with (Z.of_nat (length (vwords v)) * 8 * 8) by lia.
      apply Z.mod_mul. lia.
    - replace (Z.of_nat (length (vwords v)) * 128) with (Z.of_nat (length (vwords v)) * 16 * 8) by lia.
      apply Z.mod_mul. lia. }
  destruct (to_float_tie (vlen v) Hn M8) as [-> ->]. cbv zeta.
  destruct (Z.ltb_spec (vlen v) (vlen v)); [lia|reflexivity].
Qed.

Lemma vend_full : forall w v, valid_w w -> vlen v = Z.of_nat (length (vwords v)) * w ->
  vlen v < 2 ^ 62 -> iadd w vbegin (vlen v) = Ok (It (Z.of_nat (length (vwords v))) 0).
Proof.
  intros w v Hw Hf Hn. pose proof (valid_pos w Hw) as Pw.
  rewrite iadd_eq; [|assumption|unfold vbegin; cbn [mk_aligned ip]; lia].
  unfold vbegin, mk_aligned. cbn [ib ip]. rewrite !Z.add_0_l. rewrite Hf.
  rewrite Z.div_mul, Z.mod_mul by lia. reflexivity.
Qed.

Section Full.
Variables (p : policy) (w : Z) (v : bvec).
Hypothesis Hw : valid_w w.
Hypothesis Hf : vlen v = Z.of_nat (length (vwords v)) * w.
Hypothesis Hn : 2 ^ 24 <= vlen v < 2 ^ 27.
Local Notation sz := (Z.of_nat (length (vwords v))).

Lemma full_valid : valid_it w (It sz 0) /\ valid_it w (It sz 1) /\
  addr w (It sz 0) = vlen v /\ addr w (It sz 1) = vlen v + 1.
Proof.
  pose proof (valid_pos w Hw) as Pw. unfold valid_it, addr. cbn [ib ip]. lia.
Qed.

Lemma full_iadd : iadd w vbegin (vlen v) = Ok (It sz 0) /\
  iadd w vbegin (vlen v + 1) = Ok (It sz 1) /\ iadd w (It sz 0) 1 = Ok (It sz 1).
Proof.
  pose proof (valid_pos w Hw) as Pw. split; [apply vend_full; [assumption..|lia]|]. split.
  - rewrite iadd_eq; [|assumption|unfold vbegin; cbn [mk_aligned ip]; lia].
    unfold vbegin, mk_aligned. cbn [ib ip]. rewrite !Z.add_0_l. rewrite Hf.
    rewrite Z.div_add_l by lia. rewrite (Z.add_comm _ 1), Z.mod_add by lia.
    rewrite Z.div_small, Z.mod_small by lia. rewrite Z.add_0_r. reflexivity.
  - rewrite iadd_eq; [|assumption|cbn [ip]; lia]. cbn [ib ip].
    rewrite Z.div_small, Z.mod_small by lia. rewrite Z.add_0_r. reflexivity.
Qed.

Lemma full_shift : forall m, shift_right p w (It sz 0) (It sz 1) 1 m = Ok (It sz 1, m).
Proof.
  intros m. pose proof (valid_pos w Hw) as Pw. destruct full_valid as (V0 & V1 & A0 & A1).
  unfold shift_right, bind, lift. rewrite distance_eq by (assumption || lia).
  assert (H := rwp_isub w (It sz 1) 1 (fun _ => True) Hw V1 ltac:(lia) (fun _ _ _ => I)).
  apply rwp_exists in H. destruct H as (mid & -> & _).
  rewrite A0, A1. replace (vlen v + 1 - vlen v) with 1 by lia. reflexivity.
Qed.

Lemma full_unmapped : forall ext, vmem (vwords v) ext sz = None.
Proof.
  intros ext. unfold vmem, wsize. destruct (Z.ltb_spec sz 0); [lia|].
  destruct (Z.ltb_spec sz sz); [lia|reflexivity].
Qed.

Lemma full_fill : forall m b, m sz = None ->
  fill p w (It sz 0) (It sz 1) b m = UB OutOfBounds.
Proof.
  intros m b Hm. pose proof (valid_pos w Hw) as Pw. destruct full_valid as (V0 & V1 & A0 & A1).
  unfold fill, bind, lift.
  rewrite assert_viable_eq, distance_eq by (assumption || lia).
  rewrite is_within_eq by (assumption || lia). rewrite A0, A1.
  replace (vlen v + 1 - vlen v) with 1 by lia. change (1 =? 0) with false. cbv iota.
  destruct (Z.leb_spec 1 w); [|lia]. unfold write_word. cbn [ip ib].
  destruct (Z.eqb_spec 1 w); [lia|]. cbn [Z.eqb andb]. unfold bind, load. rewrite Hm. reflexivity.
Qed.

Lemma full_copy : forall first last m, m sz = None -> valid_it w first -> valid_it w last ->
  addr w last - addr w first = 1 -> copy p w first last (It sz 0) m = UB OutOfBounds.
Proof.
  intros first last m Hm V0 V1 A. pose proof (valid_pos w Hw) as Pw.
  unfold copy, bind, lift, ret.
  rewrite assert_viable_eq, distance_eq by (assumption || lia).
  rewrite (ieq_addr w) by (assumption || lia).
  destruct (Z.eqb_spec (addr w first) (addr w last)); [lia|]. rewrite A. cbn [ip ib].
  change (0 =? 0) with true. cbn [negb]. cbv iota beta. change (0 <? 1) with true. cbv iota.
  destruct (Z.ltb_spec w 1); [lia|]. rewrite andb_false_r.
  rewrite (Z.div_small 1 w) by lia. cbn [Z.to_nat copy_loop].
  destruct (Z.leb_spec w 1); [lia|]. cbn [ret]. unfold ret. change (0 <? 1) with true. cbv iota.
  unfold load. rewrite Hm. reflexivity.
Qed.

Lemma insert_n_oob : forall b,
  (let? e := vend w v in insert_n p w v e 1 b) = UB OutOfBounds.
Proof.
  intros b. pose proof (valid_pos w Hw) as Pw.
  pose proof (begin_valid w ltac:(lia)) as Vb. pose proof (begin_addr w) as Ab.
  destruct full_valid as (V0 & V1 & A0 & A1). destruct full_iadd as (E0 & E1 & E2).
  unfold vend. rewrite swrap64_small by lia. rewrite E0. cbn [rbind].
  unfold insert_n. rewrite distance_eq by (assumption || lia).
  rewrite A0, Ab, Z.sub_0_r. cbn [rbind].
  change (1 =? 0) with false. cbv iota.
  rewrite full_no_growth by assumption. cbn [rbind].
  rewrite wrap_small, !swrap64_small by lia. cbv zeta.
  unfold on_words, on_words_ext, bind, lift. rewrite E0, E1.
  rewrite full_shift. rewrite E2. rewrite full_fill by apply full_unmapped. reflexivity.
Qed.

Lemma insert_range_oob : forall ext first last, valid_it w first -> valid_it w last ->
  addr w last - addr w first = 1 ->
  (let? e := vend w v in insert_range p w ext v e first last) = UB OutOfBounds.
Proof.
  intros ext first last Vf Vl A. pose proof (valid_pos w Hw) as Pw.
  pose proof (begin_valid w ltac:(lia)) as Vb. pose proof (begin_addr w) as Ab.
  destruct full_valid as (V0 & V1 & A0 & A1). destruct full_iadd as (E0 & E1 & E2).
  unfold vend. rewrite swrap64_small by lia. rewrite E0. cbn [rbind].
  unfold insert_range. rewrite distance_eq by (assumption || lia).
  rewrite A0, Ab, Z.sub_0_r. cbn [rbind].
  rewrite distance_eq by (assumption || lia). rewrite A. cbn [rbind].
  change (wrap 64 1) with 1. cbv zeta. change (1 =? 0) with false. cbv iota.
  rewrite full_no_growth by assumption. cbn [rbind].
  rewrite wrap_small, !swrap64_small by lia.
  unfold on_words_ext, bind, lift. rewrite E0, E1.
  rewrite full_shift. rewrite full_copy by (assumption || apply full_unmapped). reflexivity.
Qed.
End Full.

(** The same vector is enlarged correctly up to 2^24 bits: [grow_ok] of ProofVec2. *)

(** ** Insertions that are undefined under the language rules *)

Lemma insert1_undefined : forall p w v b, valid_w w -> vec_ok w v ->
  vlen v = w - 1 -> ~ full_blend_defined p w ->
  exists k, insert1 p w v vbegin b = UB k /\ (k = OverShift \/ k = NegShift).
Proof.
  intros p w v b Hw V Hl Hg. pose proof (valid_pos w Hw) as Pw.
  pose proof (begin_valid w ltac:(lia)) as Vb. pose proof (begin_addr w) as Ab.
  destruct (room_ok w v Hw V ltac:(unfold max_bits; lia)) as (R1 & R2 & R3).
  unfold insert1. rewrite distance_eq by (assumption || lia). rewrite Ab, Z.sub_diag.
  cbn [rbind]. fold (room w v). cbv zeta. rewrite Hl. replace (w - 1 + 1) with w by lia.
  rewrite wrap_small, swrap64_small by lia.
  assert (E0 : iadd w vbegin 0 = Ok (It 0 0)).
  { rewrite iadd_eq; [|assumption|cbn; lia]. unfold vbegin, mk_aligned. cbn [ib ip].
    rewrite !Z.add_0_l. rewrite Z.div_0_l, Z.mod_0_l by lia. reflexivity. }
  assert (E1 : iadd w vbegin w = Ok (It 1 0)).
  { rewrite iadd_eq; [|assumption|cbn; lia]. unfold vbegin, mk_aligned. cbn [ib ip].
    rewrite !Z.add_0_l. rewrite Z.div_same, Z.mod_same by lia. reflexivity. }
  assert (G : good_range w (vmem (room w v) nomem) (It 0 0) (It 1 0)).
  { split; [unfold valid_it; cbn; lia|]. split; [unfold valid_it; cbn; lia|].
    unfold addr. cbn [ib ip]. unfold max_bits. split; [lia|]. apply vmem_mapped; lia. }
  destruct (shift_right_bad p w (vmem (room w v) nomem) (It 0 0) (It 1 0) 1 Hw)
    as (k & Ek & Hk); [apply vmem_wf; [assumption|apply nomem_wf]|exact G|reflexivity|reflexivity|
      reflexivity|lia|assumption|].
  exists k. unfold on_words, on_words_ext, bind, lift. rewrite E0, E1, Ek. auto.
Qed.

(** ** Constructors *)

Lemma ctor_fill_ok : forall w n b, valid_w w -> 0 <= n < 2 ^ 32 ->
  vec_ok w (ctor_fill w n b) /\ vbits w (ctor_fill w n b) = repeat b (Z.to_nat n).
Proof.
  intros w n b Hw Hn. pose proof (valid_pos w Hw) as Pw.
  pose proof (word_count_ok w n Hw Hn) as Hc. unfold ctor_fill.
  set (c := word_count w n) in *. assert (0 <= c) by nia.
  set (x := if b then wrap w (-1) else 0).
  assert (Hx : 0 <= x < 2 ^ w).
  { unfold x. destruct b; [apply wrap_range; lia|]. pose proof (pow_pos w). lia. }
  assert (V' : vec_ok w (BV (repeat x (Z.to_nat c)) n)).
  { split; cbn [vwords vlen].
    - apply Forall_forall. intros y Hy. apply repeat_spec in Hy. subst. exact Hx.
    - rewrite repeat_length. unfold max_bits. nia. }
  split; [exact V'|]. apply vbits_eq; [lia|assumption|rewrite zlen_repeat by lia; reflexivity|].
  cbn [vwords vlen]. intros i Hi. rewrite get_repeat by lia. rewrite vmem_bit by lia.
  rewrite repeat_length. destruct (Z.ltb_spec i (Z.of_nat (Z.to_nat c) * w)) as [C|C]; [|nia].
  assert (0 <= i / w < c) by (split; [apply Z.div_pos; lia|apply Z.div_lt_upper_bound; lia]).
  rewrite (nth_indep _ 0 x) by (rewrite repeat_length; lia). rewrite nth_repeat.
  pose proof (Z.mod_pos_bound i w ltac:(lia)). unfold x. destruct b; [|apply Z.bits_0].
  rewrite all_ones_testbit by lia. lia.
Qed.

Lemma ctor_count_ok : forall w n, valid_w w -> 0 <= n < 2 ^ 32 ->
  vec_ok w (ctor_count w n) /\ vbits w (ctor_count w n) = repeat false (Z.to_nat n).
Proof. intros w n Hw Hn. apply (ctor_fill_ok w n false Hw Hn). Qed.

Lemma ctor_words_ok : forall w ws, valid_w w -> words_ok w ws -> zlen ws * w <= max_bits ->
  vec_ok w (ctor_words w ws) /\ vbits w (ctor_words w ws) = list_bits w ws.
Proof.
  intros w ws Hw H Hb. pose proof (valid_pos w Hw) as Pw. unfold max_bits, zlen in *.
  unfold ctor_words, wsize. rewrite wrap_small by lia. split.
  - split; [exact H|]. cbn [vwords vlen]. unfold max_bits. lia.
  - unfold vbits. cbn [vwords vlen]. apply firstn_all2. rewrite list_bits_length by lia. lia.
Qed.

Lemma zeros_ok : forall w n, valid_w w -> 0 <= n -> n * w <= max_bits ->
  words_ok w (repeat 0 (Z.to_nat n)) /\ zlen (repeat 0 (Z.to_nat n)) = n /\ n <= n * w.
Proof.
  intros w n Hw Hn Hb. pose proof (valid_pos w Hw) as Pw.
  split; [apply words_ok_zeros; lia|]. split; [apply zlen_repeat; lia|nia].
Qed.

Lemma ctor_bits_wp : forall p w ext first last, valid_w w -> (forall a, 0 <= a -> ext a = None) ->
  wf_mem w ext -> good_range w ext first last -> addr w last <= 0 ->
  (addr w last - addr w first) * w <= max_bits ->
  rwp (ctor_bits p w ext first last) (fun r => (forall a, snd r a = ext a) /\ vec_ok w (fst r) /\
    vbits w (fst r) = map (fun k => bit w ext (addr w first + Z.of_nat k))
      (seq 0 (Z.to_nat (addr w last - addr w first)))).
Proof.
  intros p w ext first last Hw Hp We G Hneg Hb. pose proof (valid_pos w Hw) as Pw.
  pose proof G as (G1 & G2 & G3 & G4).
  pose proof (begin_valid w ltac:(lia)) as Vb. pose proof (begin_addr w) as Ab.
  set (c := addr w last - addr w first) in *.
  destruct (zeros_ok w c Hw ltac:(lia) Hb) as (Z1 & Z2 & Z3). unfold zlen in Z2.
  unfold max_bits in *.
  set (src := map (fun k => bit w ext (addr w first + Z.of_nat k)) (seq 0 (Z.to_nat c))).
  assert (Ls : zlen src = c) by (unfold zlen, src; rewrite map_length, seq_length; lia).
  assert (Gs : forall k, 0 <= k < c -> get_at k src = bit w ext (addr w first + k)).
  { intros k Hk. unfold get_at, src.
    set (g := fun k => bit w ext (addr w first + Z.of_nat k)).
    rewrite (nth_indep _ false (g O)) by (rewrite map_length, seq_length; lia).
    rewrite map_nth, seq_nth by lia. unfold g. f_equal. lia. }
  unfold ctor_bits. rewrite distance_eq by (assumption || lia). fold c. cbn [rbind].
  set (ws := repeat 0 (Z.to_nat c)) in *. apply rwp_bind.
  assert (Ext : forall a, a < 0 -> vmem ws ext a = ext a).
  { intros a Ha. unfold vmem. destruct (Z.ltb_spec a 0); [reflexivity|lia]. }
  assert (Neg : forall j, j < 0 -> j / w < 0) by (intros j Hj; apply Z.div_lt_upper_bound; lia).
  assert (Be : forall j, j < 0 -> bit w (vmem ws ext) j = bit w ext j).
  { intros j Hj. unfold bit. rewrite Ext by (apply Neg; exact Hj). reflexivity. }
  eapply rwp_conseq; [apply (on_words_wp iter w ws ext _ (fun _ ws' e =>
    length ws' = length ws /\ words_ok w ws' /\ (forall a, e a = ext a) /\
    forall j, 0 <= j < c -> bit w (vmem ws' nomem) j = bit w ext (addr w first + j))); [lia|]|].
  - assert (Wf : wf_mem w (vmem ws ext)) by (apply vmem_wf; assumption).
    assert (G' : good_range w (vmem ws ext) first last).
    { split; [assumption|]. split; [assumption|]. unfold max_bits. split; [lia|].
      intros j Hj. rewrite Ext by (apply Neg; lia). apply G4, Hj. }
    assert (Gd : good_dest w (vmem ws ext) vbegin (addr w last - addr w first)).
    { split; [assumption|]. apply vmem_mapped; lia. }
    destruct (copy_ok p w (vmem ws ext) first last vbegin Hw Wf G' Gd ltac:(lia))
      as (d' & m2 & E2 & _ & _ & W2 & D2 & B2).
    apply (wp_ok _ _ _ _ _ _ E2). split; [assumption|]. split; [assumption|].
    intros ws' L W B. split; [assumption|]. split; [assumption|]. split.
    + intros a. unfold outside. destruct (Z.ltb_spec a 0) as [Ca|Ca]; [|symmetry; apply Hp; lia].
      rewrite <- Ext by lia.
      destruct (vmem ws ext a) as [x|] eqn:Ex; [|apply D2; assumption].
      destruct (m2 a) as [y|] eqn:Ey; [|exfalso; apply D2 in Ey; congruence].
      f_equal. apply (word_ext w); [lia|apply (W2 _ _ Ey)|apply (Wf _ _ Ex)|].
      intros k Hk.
      assert (Bk : bit w m2 (a * w + k) = bit w (vmem ws ext) (a * w + k)).
      { rewrite B2. unfold inr. replace (addr w vbegin <=? a * w + k) with false by nia. reflexivity. }
      unfold bit in Bk. rewrite (div_word w a), (mod_word w a) in Bk by lia.
      replace (a * w + k - a * w) with k in Bk by lia. rewrite Ex, Ey in Bk. exact Bk.
    + intros j Hj. rewrite B, B2 by lia. unfold inr. rewrite Ab, Z.add_0_l, Z.sub_0_r.
      replace (0 <=? j) with true by lia. fold c. replace (j <? c) with true by lia.
      cbn [andb]. apply Be. lia.
  - intros [[r0 ws'] e] (L & W & He & B). apply rwp_ok. cbn [fst snd]. split; [exact He|].
    assert (V' : vec_ok w (BV ws' c)).
    { split; [exact W|]. cbn [vwords vlen]. rewrite L. unfold max_bits. lia. }
    split; [exact V'|].
    apply vbits_eq; [lia|assumption|rewrite Ls; reflexivity|].
    cbn [vwords vlen]. intros j Hj. rewrite B by lia. symmetry. apply Gs. lia.
Qed.

Lemma wp_write_bools : forall p w bs d m, valid_w w -> wf_mem w m -> valid_it w d ->
  mapped w m (addr w d) (addr w d + zlen bs) ->
  wp (write_bools p w d bs) m (fun _ m' =>
    updated w m m' (addr w d) (addr w d + zlen bs) (fun i => get_at (i - addr w d) bs)).
Proof.
  intros p w bs. induction bs as [|b bs IH]; intros d m Hw Wf Vd Hm;
    pose proof (valid_pos w Hw) as Pw; cbn [write_bools].
  - apply wp_ret. split; [assumption|]. split; [apply same_dom_refl|].
    intros i. unfold inr. change (zlen (@nil bool)) with 0.
    destruct (Z.leb_spec (addr w d) i); destruct (Z.ltb_spec i (addr w d + 0)); try lia; reflexivity.
  - assert (Lc : zlen (b :: bs) = zlen bs + 1) by (unfold zlen; cbn [length]; lia).
    assert (0 <= zlen bs) by (unfold zlen; lia). rewrite Lc in *.
    unfold ideref. destruct d as [a q]. unfold valid_it in Vd. cbn [ib ip] in *.
    destruct (mk_ref_refers p w a q Hw Vd) as (r & Er & _ & Ep & Em & _).
    apply wp_bind, wp_lift. rewrite Er. apply rwp_ok.
    destruct r as [ra rm]. cbn [rptr rmask] in *. subst ra rm.
    unfold addr in *. cbn [ib ip] in *.
    apply wp_bind, wp_ref_assign_val; [assumption..| |].
    { apply (refers_mapped w m a q); [assumption|]. eapply mapped_sub; [exact Hm|lia|lia]. }
    intros m1 (W1 & D1 & B1).
    destruct (iinc_spec w (It a q) ltac:(lia) Vd) as [Vi Ai]. unfold addr in Ai. cbn [ib ip] in Ai.
    specialize (IH (iinc w (It a q)) m1 Hw W1 Vi). unfold addr in IH. rewrite Ai in IH.
    assert (Hm1 : mapped w m1 (a * w + q + 1) (a * w + q + 1 + zlen bs)).
    { eapply mapped_sub; [eapply mapped_dom; [exact Hm|exact D1]|lia|lia]. }
    eapply wp_conseq; [apply IH; exact Hm1|]. intros _ m2 (W2 & D2 & B2).
    split; [assumption|]. split; [eapply same_dom_trans; eassumption|].
    intros i. rewrite B2, B1, inr_one. unfold inr.
    destruct (Z.leb_spec (a * w + q + 1) i); destruct (Z.ltb_spec i (a * w + q + 1 + zlen bs));
    destruct (Z.eqb_spec i (a * w + q));
    destruct (Z.leb_spec (a * w + q) i); destruct (Z.ltb_spec i (a * w + q + (zlen bs + 1)));
      try lia; cbn [andb]; try reflexivity.
    + unfold get_at. replace (Z.to_nat (i - (a * w + q))) with (S (Z.to_nat (i - (a * w + q + 1)))) by lia.
      reflexivity.
    + subst i. rewrite Z.sub_diag. reflexivity.
Qed.

Lemma built_ok : forall w n ws' bs, valid_w w -> zlen bs = n -> n * w <= max_bits ->
  length ws' = Z.to_nat n -> words_ok w ws' ->
  (forall i, 0 <= i < n -> bit w (vmem ws' nomem) i = get_at i bs) ->
  vec_ok w (BV ws' n) /\ vbits w (BV ws' n) = bs.
Proof.
  intros w n ws' bs Hw Hl Hb L W B. pose proof (valid_pos w Hw) as Pw. unfold max_bits in *.
  assert (0 <= n) by (rewrite <- Hl; unfold zlen; lia).
  assert (V' : vec_ok w (BV ws' n)).
  { split; [exact W|]. cbn [vwords vlen]. rewrite L. unfold max_bits. nia. }
  split; [exact V'|]. apply vbits_eq; [lia|assumption|assumption|exact B].
Qed.

Lemma ctor_bools_ok : forall p w bs, valid_w w -> zlen bs * w <= max_bits ->
  exists v, ctor_bools p w bs = Ok v /\ vec_ok w v /\ vbits w v = bs.
Proof.
  intros p w bs Hw Hb. pose proof (valid_pos w Hw) as Pw. apply rwp_exists.
  assert (H0 : 0 <= zlen bs) by (unfold zlen; lia).
  destruct (zeros_ok w (zlen bs) Hw H0 Hb) as (Z1 & Z2 & Z3). unfold zlen in Z1, Z2.
  rewrite Nat2Z.id in Z1, Z2.
  unfold ctor_bools. apply rwp_bind.
  eapply rwp_conseq; [apply (on_words_wp0 unit w (repeat 0 (length bs)) _ (fun _ ws' =>
    length ws' = length bs /\ words_ok w ws' /\
    forall i, 0 <= i < zlen bs -> bit w (vmem ws' nomem) i = get_at i bs)); [lia|]|].
  - eapply wp_conseq; [apply wp_write_bools; [assumption|apply vmem_wf; [assumption|apply nomem_wf]|
      apply begin_valid; lia|]|].
    + rewrite begin_addr, Z.add_0_l. apply vmem_mapped; [lia|lia|]. rewrite repeat_length. exact Z3.
    + intros _ m' (U1 & U2 & U3). split; [assumption|]. split; [assumption|].
      intros ws' L W B. rewrite repeat_length in L. split; [assumption|]. split; [assumption|].
      intros i Hi. rewrite B, U3, begin_addr, Z.add_0_l, Z.sub_0_r by lia. unfold inr.
      destruct (Z.leb_spec 0 i); [|lia]. destruct (Z.ltb_spec i (zlen bs)); [reflexivity|lia].
  - intros [[] ws'] (L & W & B). apply rwp_ok. apply built_ok; [assumption|reflexivity|exact Hb|
      unfold zlen; lia|assumption|assumption].
Qed.

Lemma ctor_init_ok : forall p w bs, valid_w w -> zlen bs + w <= max_bits ->
  exists v, ctor_init p w bs = Ok v /\ vec_ok w v /\ vbits w v = bs.
Proof.
  intros p w bs Hw Hb. pose proof (valid_pos w Hw) as Pw. unfold ctor_init.
  assert (H : forall bs v, vec_ok w v -> zlen (vbits w v) + zlen bs + w <= max_bits ->
    exists v', push_all p w v bs = Ok v' /\ vec_ok w v' /\ vbits w v' = vbits w v ++ bs).
  { clear bs Hb. induction bs as [|b bs IH]; intros v V Hb; cbn [push_all].
    - exists v. rewrite app_nil_r. auto.
    - assert (zlen (b :: bs) = zlen bs + 1) by (unfold zlen; cbn [length]; lia).
      assert (0 <= zlen bs) by (unfold zlen; lia).
      pose proof (vbits_length w v ltac:(lia) V).
      pose proof (push_back_wp p w v b Hw V ltac:(lia)) as Hp. apply rwp_exists in Hp.
      destruct Hp as (v1 & E & V1 & B1). rewrite E. cbn [rbind].
      destruct (IH v1 V1) as (v2 & E2 & V2 & B2).
      { rewrite B1, zlen_app. change (zlen [b]) with 1. lia. }
      exists v2. split; [assumption|]. split; [assumption|]. rewrite B2, B1, <- app_assoc. reflexivity. }
  destruct (H bs ctor_default) as (v & E & V & B).
  - split; [constructor|]. cbn. unfold max_bits. lia.
  - change (vbits w ctor_default) with (@nil bool). change (zlen (@nil bool)) with 0. lia.
  - exists v. auto.
Qed.

(** ** Strings *)

Lemma zlen_cons : forall A (x : A) l, zlen (x :: l) = zlen l + 1.
Proof. intros. unfold zlen. cbn [length]. lia. Qed.

Lemma string_bits_len : forall s, zlen (string_bits s) = count_char 48 s + count_char 49 s.
Proof.
  induction s as [|c s IH]; [reflexivity|]. unfold string_bits, count_char, zlen in *.
  cbn [filter]. rewrite map_length in *.
  destruct (Z.eqb_spec c 48); destruct (Z.eqb_spec c 49); cbn [orb length]; lia.
Qed.

Lemma wp_write_string : forall p w s i m, valid_w w -> wf_mem w m -> 0 <= i ->
  i + zlen (string_bits s) < 2 ^ 62 -> mapped w m i (i + zlen (string_bits s)) ->
  wp (write_string p w i s) m (fun _ m' =>
    updated w m m' i (i + zlen (string_bits s)) (fun j => get_at (j - i) (string_bits s))).
Proof.
  intros p w s. induction s as [|c s IH]; intros i m Hw Wf Hi Hb Hm;
    pose proof (valid_pos w Hw) as Pw; cbn [write_string].
  - apply wp_ret. split; [assumption|]. split; [apply same_dom_refl|].
    intros j. unfold inr. change (zlen (string_bits [])) with 0.
    destruct (Z.leb_spec i j); destruct (Z.ltb_spec j (i + 0)); try lia; reflexivity.
  - assert (Hs : 0 <= zlen (string_bits s)) by (unfold zlen; lia).
    assert (Step : forall b, string_bits (c :: s) = b :: string_bits s ->
      wp (let! r := iindex p w vbegin (swrap64 i) in
          ref_assign_val w r b ;; write_string p w (wrap 64 (i + 1)) s) m
        (fun _ m' => updated w m m' i (i + zlen (string_bits (c :: s)))
           (fun j => get_at (j - i) (string_bits (c :: s))))).
    { intros b E. rewrite E in *. rewrite zlen_cons in *.
      rewrite swrap64_small, wrap_small by lia.
      destruct (iindex_begin p w i Hw ltac:(lia)) as (r & Er & R).
      destruct R as (a & q & Hq & -> & Ea).
      apply wp_bind, wp_lift. rewrite Er. apply rwp_ok.
      apply wp_bind, wp_ref_assign_val; [assumption..| |].
      { apply (refers_mapped w m a q); [assumption|]. eapply mapped_sub; [exact Hm|lia|lia]. }
      rewrite <- Ea. intros m1 (W1 & D1 & B1).
      eapply wp_conseq; [apply IH; [assumption..|lia|lia|]|].
      { eapply mapped_sub; [eapply mapped_dom; [exact Hm|exact D1]|lia|lia]. }
      intros _ m2 (W2 & D2 & B2).
      split; [assumption|]. split; [eapply same_dom_trans; eassumption|].
      intros j. rewrite B2, B1, inr_one. unfold inr.
      destruct (Z.leb_spec (i + 1) j); destruct (Z.ltb_spec j (i + 1 + zlen (string_bits s)));
      destruct (Z.eqb_spec j i);
      destruct (Z.leb_spec i j); destruct (Z.ltb_spec j (i + (zlen (string_bits s) + 1)));
        try lia; cbn [andb]; try reflexivity.
      + unfold get_at. replace (Z.to_nat (j - i)) with (S (Z.to_nat (j - (i + 1)))) by lia.
        reflexivity.
      + subst j. rewrite Z.sub_diag. reflexivity. }
    destruct (Z.eqb_spec c 48) as [E0|E0].
    + apply Step. subst c. reflexivity.
    + destruct (Z.eqb_spec c 49) as [E1|E1].
      * apply Step. subst c. reflexivity.
      * assert (E : string_bits (c :: s) = string_bits s).
        { unfold string_bits. cbn [filter]. destruct (Z.eqb_spec c 48); [lia|].
          destruct (Z.eqb_spec c 49); [lia|]. reflexivity. }
        rewrite E in *. apply IH; assumption.
Qed.

Lemma ctor_string_ok : forall p w s, valid_w w -> zlen (string_bits s) * w <= max_bits ->
  exists v, ctor_string p w s = Ok v /\ vec_ok w v /\ vbits w v = string_bits s.
Proof.
  intros p w s Hw Hb. pose proof (valid_pos w Hw) as Pw. apply rwp_exists.
  set (bs := string_bits s) in *.
  assert (H0 : 0 <= zlen bs) by (unfold zlen; lia).
  destruct (zeros_ok w (zlen bs) Hw H0 Hb) as (Z1 & Z2 & Z3). unfold zlen in Z2.
  unfold ctor_string. rewrite <- string_bits_len. fold bs. cbv zeta. apply rwp_bind.
  unfold max_bits in *. assert (zlen bs < 2 ^ 62) by nia.
  eapply rwp_conseq; [apply (on_words_wp0 unit w (repeat 0 (Z.to_nat (zlen bs))) _ (fun _ ws' =>
    length ws' = Z.to_nat (zlen bs) /\ words_ok w ws' /\
    forall i, 0 <= i < zlen bs -> bit w (vmem ws' nomem) i = get_at i bs)); [lia|]|].
  - eapply wp_conseq; [apply wp_write_string; [assumption|apply vmem_wf; [assumption|apply nomem_wf]|
      lia|fold bs; lia|]|].
    + fold bs. apply vmem_mapped; [lia|lia|]. rewrite repeat_length. lia.
    + fold bs. intros _ m' (U1 & U2 & U3). split; [assumption|]. split; [assumption|].
      intros ws' L W B. rewrite repeat_length in L. split; [assumption|]. split; [assumption|].
      intros i Hi. rewrite B, U3, Z.add_0_l, Z.sub_0_r by lia. unfold inr.
      destruct (Z.leb_spec 0 i); [|lia]. destruct (Z.ltb_spec i (zlen bs)); [reflexivity|lia].
  - intros [[] ws'] (L & W & B). apply rwp_ok. apply built_ok; [assumption|reflexivity|exact Hb|
      assumption|assumption|assumption].
Qed.

Lemma text_bits : forall w l i, string_bits (bits_text w i l) = l.
Proof.
  intros w l. induction l as [|b l IH]; intros i; [reflexivity|]. cbn [bits_text].
  unfold string_bits, digit_text in *. rewrite !filter_app, !map_app, IH.
  destruct b; destruct (i =? 0), (i mod w =? 0), (i mod 8 =? 0); reflexivity.
Qed.

Lemma text_chars : forall w l i c, In c (bits_text w i l) -> c = 48 \/ c = 49 \/ c = 32 \/ c = 46.
Proof.
  intros w l. induction l as [|b l IH]; intros i c H; [destruct H|]. cbn [bits_text] in H.
  apply in_app_or in H. destruct H as [H|H]; [|apply (IH _ _ H)].
  unfold digit_text in H. destruct b, (i =? 0), (i mod w =? 0), (i mod 8 =? 0); cbn in H; lia.
Qed.

Lemma wp_debug_loop : forall p w last n m, valid_w w -> wf_mem w m -> valid_it w last ->
  addr w last = n -> n < 2 ^ 31 ->
  forall fuel it i, valid_it w it -> addr w it = i -> 0 <= i <= n -> n - i <= Z.of_nat fuel ->
  mapped w m i n ->
  wp (debug_loop p w fuel it last i) m (fun s m' => m' = m /\
    s = bits_text w i (map (fun k => bit w m (i + Z.of_nat k)) (seq 0 (Z.to_nat (n - i))))).
Proof.
  intros p w last n m Hw Wf Vl Al Hn fuel. pose proof (valid_pos w Hw) as Pw.
  induction fuel as [|fuel IH]; intros it i Vi Ai Hi Hf Hm; cbn [debug_loop];
    destruct (cmp_addr w it last ltac:(lia) Vi Vl) as (-> & _); rewrite Ai, Al;
    destruct (Z.eqb_spec i n) as [E|E]; cbn [negb]; try lia;
    try (subst n; rewrite E, Z.sub_diag; apply wp_ret; split; reflexivity).
  unfold ideref. destruct it as [a q]. unfold valid_it in Vi. cbn [ib ip] in *.
  destruct (mk_ref_refers p w a q Hw Vi) as (r & Er & _ & Ep & Em & _).
  apply wp_bind, wp_lift. rewrite Er. apply rwp_ok.
  destruct r as [ra rm]. cbn [rptr rmask] in *. subst ra rm.
  apply wp_bind, (wp_ref_get w); [assumption..| |].
  { apply (refers_mapped w m a q); [assumption|]. unfold addr in Ai. cbn [ib ip] in Ai.
    eapply mapped_sub; [exact Hm|lia|lia]. }
  destruct (Z.leb_spec (2 ^ 31) (i + 1)) as [C|C]; [lia|].
  destruct (iinc_spec w (It a q) ltac:(lia) Vi) as [Vi' Ai'].
  apply wp_bind.
  eapply wp_conseq; [apply (IH (iinc w (It a q)) (i + 1)); [assumption|lia|lia|lia|]|].
  { eapply mapped_sub; [exact Hm|lia|lia]. }
  intros s m' [-> ->]. apply wp_ret. split; [reflexivity|].
  replace (Z.to_nat (n - i)) with (S (Z.to_nat (n - (i + 1)))) by lia.
  cbn [seq map bits_text]. unfold digit_text. rewrite <- app_assoc. cbn [app].
  unfold addr in Ai. cbn [ib ip] in Ai. rewrite Ai, Z.add_0_r. f_equal.
  - destruct (Z.eqb_spec i 0); destruct (i mod w =? 0), (i mod 8 =? 0); reflexivity.
  - f_equal. f_equal. rewrite <- seq_shift, map_map. apply map_ext. intros k. f_equal. lia.
Qed.

Lemma debug_string_ok : forall p w v, valid_w w -> vec_ok w v -> vlen v < 2 ^ 31 ->
  debug_string p w v = Ok (bits_text w 0 (vbits w v)).
Proof.
  intros p w v Hw V Hn. pose proof (valid_pos w Hw) as Pw. pose proof V as (V1 & V2 & V3).
  pose proof (begin_valid w ltac:(lia)) as Vb. pose proof (begin_addr w) as Ab.
  pose proof (vbits_length w v ltac:(lia) V) as Hl.
  assert (H : rwp (debug_string p w v) (fun s => s = bits_text w 0 (vbits w v))).
  { unfold debug_string, vend. rewrite swrap64_small by lia.
    apply rwp_bind, rwp_iadd; [assumption..|lia|]. intros e Ve Ae. apply rwp_bind.
    assert (Wf : wf_mem w (vmem (vwords v) nomem)) by (apply vmem_wf; [assumption|apply nomem_wf]).
    eapply rwp_conseq; [apply (on_words_wp0 _ w (vwords v) _
      (fun s _ => s = bits_text w 0 (vbits w v))); [lia|]|].
    - eapply wp_conseq; [apply (wp_debug_loop p w e (vlen v)); [assumption..|lia|assumption|assumption|
        assumption|lia|lia|apply vmem_mapped; lia]|].
      intros s m' [-> ->]. split; [assumption|]. split; [apply same_dom_refl|].
      intros _ _ _ _. f_equal. symmetry. rewrite Z.sub_0_r. apply list_ext.
      + rewrite Hl. unfold zlen. rewrite map_length, seq_length. lia.
      + rewrite Hl. intros i Hi. rewrite (vbits_nth w v nomem) by (assumption || lia).
        unfold get_at. set (g := fun k => bit w (vmem (vwords v) nomem) (0 + Z.of_nat k)).
        rewrite (nth_indep _ false (g O)) by (rewrite map_length, seq_length; lia).
        rewrite map_nth, seq_nth by lia. unfold g. f_equal. lia.
    - intros [s ws'] Hs. apply rwp_ok. exact Hs. }
  apply rwp_exists in H. destruct H as (s & E & ->). exact E.
Qed.

Lemma round_trip : forall p w v, valid_w w -> vec_ok w v -> vlen v < 2 ^ 31 ->
  exists s v', debug_string p w v = Ok s /\ ctor_string p w s = Ok v' /\ vec_ok w v' /\
    vbits w v' = vbits w v.
Proof.
  intros p w v Hw V Hn. pose proof (valid_pos w Hw) as Pw.
  pose proof (vbits_length w v ltac:(lia) V) as Hl.
  pose proof (debug_string_ok p w v Hw V Hn) as E.
  destruct (ctor_string_ok p w (bits_text w 0 (vbits w v)) Hw) as (v' & E' & V' & B').
  - rewrite text_bits, Hl. unfold max_bits. nia.
  - exists (bits_text w 0 (vbits w v)), v'. rewrite text_bits in B'. auto.
Qed.

Lemma debug_overflow : forall p w last n m, valid_w w -> wf_mem w m -> valid_it w last ->
  addr w last = n -> 2 ^ 31 <= n ->
  forall fuel it i, valid_it w it -> addr w it = i -> 0 <= i < 2 ^ 31 -> n - i <= Z.of_nat fuel ->
  mapped w m i n -> debug_loop p w fuel it last i m = UB SignedOverflow.
Proof.
  intros p w last n m Hw Wf Vl Al Hn fuel. pose proof (valid_pos w Hw) as Pw.
  induction fuel as [|fuel IH]; intros it i Vi Ai Hi Hf Hm; [lia|]. cbn [debug_loop].
  destruct (cmp_addr w it last ltac:(lia) Vi Vl) as (-> & _). rewrite Ai, Al.
  destruct (Z.eqb_spec i n) as [E|E]; [lia|]. cbn [negb].
  unfold ideref. destruct (mk_ref_refers p w (ib it) (ip it) Hw Vi) as (r & Er & R & _).
  unfold bind at 1, lift at 1. rewrite Er. unfold bind at 1.
  fold (addr w it) in R. rewrite Ai in R.
  rewrite (ref_get_ok w m r i Hw Wf R) by (eapply mapped_sub; [exact Hm|lia|lia]).
  destruct (Z.leb_spec (2 ^ 31) (i + 1)) as [C|C]; [reflexivity|].
  destruct (iinc_spec w it ltac:(lia) Vi) as [Vi' Ai'].
  unfold bind at 1. rewrite (IH (iinc w it) (i + 1)); [reflexivity|assumption|lia|lia|lia|].
  eapply mapped_sub; [exact Hm|lia|lia].
Qed.

Lemma debug_string_overflow : forall p w v, valid_w w -> vec_ok w v -> 2 ^ 31 <= vlen v ->
  debug_string p w v = UB SignedOverflow.
Proof.
  intros p w v Hw V Hn. pose proof (valid_pos w Hw) as Pw. pose proof V as (V1 & V2 & V3).
  unfold max_bits in *.
  pose proof (begin_valid w ltac:(lia)) as Vb. pose proof (begin_addr w) as Ab.
  unfold debug_string, vend. rewrite swrap64_small by lia.
  assert (H := rwp_iadd w vbegin (vlen v) (fun it => valid_it w it /\ addr w it = vlen v) Hw Vb
    ltac:(lia) (fun _ h1 h2 => conj h1 h2)). apply rwp_exists in H.
  destruct H as (e & E & Ve & Ae). rewrite E. cbn [rbind].
  unfold on_words, on_words_ext.
  rewrite (debug_overflow p w e (vlen v)); [reflexivity|assumption|
    apply vmem_wf; [assumption|apply nomem_wf]|assumption|assumption|assumption|assumption|
    assumption|lia|lia|apply vmem_mapped; lia].
Qed.

Lemma ctor_bits_ok : forall p w ext first last, valid_w w -> (forall a, 0 <= a -> ext a = None) ->
  wf_mem w ext -> good_range w ext first last -> addr w last <= 0 ->
  (addr w last - addr w first) * w <= max_bits ->
  exists v ext', ctor_bits p w ext first last = Ok (v, ext') /\
    (forall a, ext' a = ext a) /\ vec_ok w v /\
    vbits w v = map (fun k => bit w ext (addr w first + Z.of_nat k))
      (seq 0 (Z.to_nat (addr w last - addr w first))).
Proof.
  intros p w ext first last Hw H1 H2 H3 H4 H5.
  pose proof (ctor_bits_wp p w ext first last Hw H1 H2 H3 H4 H5) as H.
  apply rwp_exists in H. destruct H as ([v ext'] & E & H). exists v, ext'. auto.
Qed.

Lemma insert_n_room : forall p w v pos i c b, valid_w w -> vec_ok w v -> 0 <= c ->
  vlen v + c <= 2 ^ 24 -> valid_it w pos -> addr w pos = i -> 0 <= i <= vlen v ->
  (0 < c -> i < vlen v -> shift_defined p w i (vlen v + c)) ->
  exists r v', insert_n p w v pos c b = Ok (r, v') /\ valid_it w r /\ addr w r = i /\
    vec_ok w v' /\ vsize v' = vlen v + c /\
    vbits w v' = insert_at i (repeat b (Z.to_nat c)) (vbits w v).
Proof.
  intros p w v pos i c b Hw V Hc Hb Vp Ap Hi Hd. pose proof (valid_pos w Hw) as Pw.
  pose proof (insert_n_wp p w v pos i c b Hw V Hc Hb Vp Ap Hi Hd) as H.
  apply rwp_exists in H. destruct H as ([r v'] & E & H1 & H2 & H3 & H4).
  exists r, v'. repeat (split; [assumption|]). split; [|assumption].
  pose proof (vbits_length w v ltac:(lia) V) as L. pose proof (vbits_length w v' ltac:(lia) H3) as L'.
  unfold vsize. cbn [snd] in *. rewrite H4 in L'. unfold insert_at, zlen in *.
  rewrite !app_length, repeat_length, firstn_length, skipn_length in L'. lia.
Qed.

Lemma insert_range_room : forall p w ext v pos i first last, valid_w w -> vec_ok w v ->
  (forall a, 0 <= a -> ext a = None) ->
  wf_mem w ext -> good_range w ext first last -> addr w last <= 0 ->
  vlen v + (addr w last - addr w first) <= 2 ^ 24 ->
  valid_it w pos -> addr w pos = i -> 0 <= i <= vlen v ->
  (addr w first < addr w last -> i < vlen v ->
     shift_defined p w i (vlen v + (addr w last - addr w first))) ->
  exists r v' ext', insert_range p w ext v pos first last = Ok (r, v', ext') /\
    valid_it w r /\ addr w r = i /\ (forall a, ext' a = ext a) /\ vec_ok w v' /\
    vbits w v' = insert_at i (map (fun k => bit w ext (addr w first + Z.of_nat k))
      (seq 0 (Z.to_nat (addr w last - addr w first)))) (vbits w v).
Proof.
  intros p w ext v pos i first last Hw V H1 H2 H3 H4 H5 Vp Ap Hi Hd.
  pose proof (insert_range_wp p w ext v pos i first last Hw V H1 H2 H3 H4 H5 Vp Ap Hi Hd) as H.
  apply rwp_exists in H. destruct H as ([[r v'] ext'] & E & H). exists r, v', ext'. auto.
Qed.

Lemma copy_move_ok : forall w v, vec_ok w v ->
  (vec_ok w (ctor_copy v) /\ vbits w (ctor_copy v) = vbits w v) /\
  (vec_ok w (fst (move_assign v)) /\ vbits w (fst (move_assign v)) = vbits w v) /\
  vsize (snd (move_assign v)) = 0 /\ vbits w (snd (move_assign v)) = [].
Proof. intros w [ws n] V. cbn. auto. Qed.

Lemma ext_none : forall src a, 0 <= a -> ext_mem src a = None.
Proof.
  intros src a Ha. unfold ext_mem. destruct (Z.ltb_spec a (-64)) as [C|C]; [lia|].
  rewrite andb_false_r. reflexivity.
Qed.
