(** Proofs about iterators (bit_iterator.hpp, distance, is_within). *)
From Coq Require Import ZArith Bool List Lia.
From Coq Require Import ZifyBool.
From Verif Require Import Base WordOps IterModel Spec ProofBase.
Import ListNotations.
Open Scope Z_scope.
Ltac Zify.zify_post_hook ::= Z.to_euclidean_division_equations.

Lemma swrap64_small : forall x, - 2 ^ 63 <= x < 2 ^ 63 -> swrap64 x = x.
Proof. intros x H. unfold swrap64. rewrite Z.mod_small by lia. lia. Qed.

Lemma floor_diff_div : forall w s, valid_w w -> floor_diff w s = s / w.
Proof.
  intros w s Hw. unfold floor_diff.
  splitw; match goal with |- context [if ?b then _ else _] => destruct b eqn:E end;
    lia.
Qed.

Lemma mk_iter_eucl : forall w b s, valid_w w ->
  mk_iter w (b + s / w) (wrap 64 (s - s / w * w)) =
  Ok (It (b + s / w) (s mod w)).
Proof.
  intros w b s Hw. pose proof (valid_pos w Hw).
  assert (E : s - s / w * w = s mod w) by (pose proof (Z.div_mod s w); lia).
  rewrite E. pose proof (Z.mod_pos_bound s w).
  rewrite wrap_small by lia. unfold mk_iter.
  destruct (Z.ltb_spec (s mod w) w); [reflexivity|lia].
Qed.

Lemma iadd_eq : forall w it n, valid_w w ->
  - 2 ^ 63 <= ip it + n < 2 ^ 63 ->
  iadd w it n = Ok (It (ib it + (ip it + n) / w) ((ip it + n) mod w)).
Proof.
  intros w it n Hw Hn. unfold iadd. rewrite swrap64_small by lia.
  rewrite floor_diff_div by assumption. apply mk_iter_eucl, Hw.
Qed.

Lemma isub_eq : forall w it n, valid_w w ->
  - 2 ^ 63 <= ip it - n < 2 ^ 63 ->
  isub w it n = Ok (It (ib it + (ip it - n) / w) ((ip it - n) mod w)).
Proof.
  intros w it n Hw Hn. unfold isub. rewrite swrap64_small by lia.
  rewrite floor_diff_div by assumption. apply mk_iter_eucl, Hw.
Qed.

Lemma norm_addr : forall w b s, 0 < w ->
  addr w (It (b + s / w) (s mod w)) = b * w + s.
Proof.
  intros w b s Hw. unfold addr. cbn [ib ip]. pose proof (Z.div_mod s w). lia.
Qed.

Lemma norm_valid : forall w b s, 0 < w -> valid_it w (It b (s mod w)).
Proof. intros w b s Hw. unfold valid_it. cbn [ip]. apply Z.mod_pos_bound, Hw. Qed.

(** Iterators are determined by their bit address. *)
Lemma addr_inj : forall w x y, 0 < w -> valid_it w x -> valid_it w y ->
  addr w x = addr w y -> x = y.
Proof.
  intros w [bx px] [by_ py] Hw Hx Hy H. unfold valid_it, addr in *. cbn [ib ip] in *.
  assert (bx = by_) by nia. subst. f_equal. lia.
Qed.

Lemma addr_base : forall w it, 0 < w -> valid_it w it -> addr w it / w = ib it.
Proof.
  intros w it Hw Hv. unfold addr, valid_it in *. apply div_word; lia.
Qed.

Lemma addr_pos : forall w it, 0 < w -> valid_it w it -> addr w it mod w = ip it.
Proof.
  intros w it Hw Hv. unfold addr, valid_it in *.
  rewrite (mod_word w (ib it)); lia.
Qed.

Lemma rwp_iadd : forall w it n (Q : iter -> Prop), valid_w w -> valid_it w it ->
  - 2 ^ 62 <= n <= 2 ^ 62 ->
  (forall it', valid_it w it' -> addr w it' = addr w it + n -> Q it') ->
  rwp (iadd w it n) Q.
Proof.
  intros w it n Q Hw Hv Hn H. pose proof (valid_pos w Hw). unfold valid_it in Hv.
  rewrite iadd_eq by (assumption || lia). apply rwp_ok, H.
  - apply norm_valid. lia.
  - rewrite norm_addr by lia. unfold addr. lia.
Qed.

Lemma rwp_isub : forall w it n (Q : iter -> Prop), valid_w w -> valid_it w it ->
  - 2 ^ 62 <= n <= 2 ^ 62 ->
  (forall it', valid_it w it' -> addr w it' = addr w it - n -> Q it') ->
  rwp (isub w it n) Q.
Proof.
  intros w it n Q Hw Hv Hn H. pose proof (valid_pos w Hw). unfold valid_it in Hv.
  rewrite isub_eq by (assumption || lia). apply rwp_ok, H.
  - apply norm_valid. lia.
  - rewrite norm_addr by lia. unfold addr. lia.
Qed.

Lemma idiff_eq : forall w l r, valid_w w -> valid_it w l -> valid_it w r ->
  - 2 ^ 62 <= addr w l - addr w r <= 2 ^ 62 ->
  idiff w l r = Ok (addr w l - addr w r).
Proof.
  intros w l r Hw Hl Hr H. pose proof (valid_pos w Hw).
  unfold idiff, valid_it, addr in *.
  replace (in_int64 ((ib l - ib r) * w)) with true by (unfold in_int64; lia).
  rewrite swrap64_small by lia. f_equal. lia.
Qed.

Lemma assert_viable_eq : forall w f l, valid_w w -> valid_it w f -> valid_it w l ->
  0 <= addr w l - addr w f <= 2 ^ 62 -> assert_viable w f l = Ok tt.
Proof.
  intros w f l Hw Hf Hl H. unfold assert_viable.
  rewrite idiff_eq by (assumption || lia). cbn [rbind].
  destruct (Z.leb_spec 0 (addr w l - addr w f)); [reflexivity|lia].
Qed.

Lemma distance_eq : forall w f l, valid_w w -> valid_it w f -> valid_it w l ->
  0 <= addr w l - addr w f <= 2 ^ 62 ->
  distance w f l = Ok (addr w l - addr w f).
Proof.
  intros w f l Hw Hf Hl H. unfold distance.
  rewrite assert_viable_eq by (assumption || lia). cbn [rbind].
  unfold addr in *. rewrite swrap64_small by lia. f_equal. lia.
Qed.

Lemma ieq_addr : forall w l r, 0 < w -> valid_it w l -> valid_it w r ->
  ieq l r = (addr w l =? addr w r).
Proof.
  intros w [bl pl] [br pr] Hw Hl Hr. unfold ieq, addr, valid_it in *.
  cbn [ib ip] in *. destruct (Z.eqb_spec (bl * w + pl) (br * w + pr)).
  - assert (bl = br) by nia. lia.
  - assert (bl <> br \/ pl <> pr) by nia. lia.
Qed.

Lemma cmp_addr : forall w l r, 0 < w -> valid_it w l -> valid_it w r ->
  ine l r = negb (addr w l =? addr w r) /\
  ilt l r = (addr w l <? addr w r) /\
  ile l r = (addr w l <=? addr w r) /\
  igt l r = (addr w r <? addr w l) /\
  ige l r = (addr w r <=? addr w l).
Proof.
  intros w [bl pl] [br pr] Hw Hl Hr.
  unfold ine, ilt, ile, igt, ige, addr, valid_it in *. cbn [ib ip] in *.
  assert (bl < br \/ bl = br \/ br < bl) as [H|[H|H]] by lia.
  - assert (bl * w + w <= br * w) by nia. lia.
  - subst. lia.
  - assert (br * w + w <= bl * w) by nia. lia.
Qed.

(** Iterator increments. *)
Lemma iinc_spec : forall w it, 0 < w -> valid_it w it ->
  valid_it w (iinc w it) /\ addr w (iinc w it) = addr w it + 1.
Proof.
  intros w it Hw Hv. unfold iinc, valid_it, addr in *.
  destruct (Z.ltb_spec (ip it + 1) w); cbn [ib ip]; lia.
Qed.

Lemma idec_spec : forall w it, 0 < w -> valid_it w it ->
  valid_it w (idec w it) /\ addr w (idec w it) = addr w it - 1.
Proof.
  intros w it Hw Hv. unfold idec, valid_it, addr in *.
  destruct (Z.eqb_spec (ip it) 0); cbn [ib ip]; lia.
Qed.

(** is_within. *)
Lemma is_within_ct_eq : forall w fuel n f l, valid_w w -> valid_it w f ->
  valid_it w l -> 0 <= n -> n / w < Z.of_nat fuel ->
  0 <= addr w l - addr w f ->
  is_within_ct w fuel n f l = Ok (addr w l - addr w f <=? n).
Proof.
  intros w fuel. induction fuel as [|fuel IH]; intros n f l Hw Hf Hl Hn Hfu Hd.
  - pose proof (valid_pos w Hw). exfalso. pose proof (Z.div_pos n w). lia.
  - pose proof (valid_pos w Hw) as Hwp. cbn [is_within_ct].
    destruct (Z.ltb_spec 0 (Z.quot n w)) as [Hq|Hq].
    + match goal with |- context [if ?b then _ else _] => destruct b eqn:E end.
      * f_equal. symmetry. unfold addr, valid_it in *. apply Z.leb_le.
        splitw; lia.
      * rewrite iadd_eq; [|assumption|unfold valid_it in Hf; lia].
        cbn [rbind].
        assert (Ha : addr w (It (ib f + (ip f + w) / w) ((ip f + w) mod w))
                     = addr w f + w).
        { rewrite norm_addr by lia. unfold addr. lia. }
        assert (Hnw : w <= n) by (clear - Hq Hw Hn; splitw; lia).
        assert (Hfl : addr w f + w < addr w l).
        { unfold addr, valid_it in *. splitw; lia. }
        rewrite IH; try assumption.
        -- rewrite Ha. f_equal. lia.
        -- apply norm_valid. lia.
        -- lia.
        -- replace (n - w) with (n + (-1) * w) by lia.
           rewrite Z.div_add by lia. lia.
        -- lia.
    + assert (Hnw : n < w) by (clear - Hq Hw Hn; splitw; lia).
      rewrite Z.rem_small by lia. f_equal.
      unfold addr, valid_it in *. splitw; lia.
Qed.

Lemma is_within_eq : forall w f l, valid_w w -> valid_it w f ->
  valid_it w l -> 0 <= addr w l - addr w f ->
  is_within w f l = Ok (addr w l - addr w f <=? w).
Proof.
  intros w f l Hw Hf Hl Hd. pose proof (valid_pos w Hw).
  apply is_within_ct_eq; try assumption; try lia.
  rewrite Z.div_same by lia. cbn. lia.
Qed.

(** Sharper bounds than above, for the property theorems. *)
Lemma idiff_full : forall w l r, valid_w w -> valid_it w l -> valid_it w r ->
  - 2 ^ 63 + w <= addr w l - addr w r < 2 ^ 63 - w ->
  idiff w l r = Ok (addr w l - addr w r).
Proof.
  intros w l r Hw Hl Hr H. pose proof (valid_pos w Hw).
  unfold idiff, valid_it, addr in *.
  replace (in_int64 ((ib l - ib r) * w)) with true by (unfold in_int64; lia).
  rewrite swrap64_small by lia. f_equal. lia.
Qed.

Lemma iadd_exact : forall w it n, valid_w w -> valid_it w it ->
  - 2 ^ 63 <= ip it + n < 2 ^ 63 ->
  exists r, iadd w it n = Ok r /\ valid_it w r /\ addr w r = addr w it + n.
Proof.
  intros w it n Hw Hv Hn. pose proof (valid_pos w Hw).
  eexists. split; [apply iadd_eq; assumption|]. split.
  - apply norm_valid. lia.
  - rewrite norm_addr by lia. unfold addr. lia.
Qed.

Lemma isub_exact : forall w it n, valid_w w -> valid_it w it ->
  - 2 ^ 63 <= ip it - n < 2 ^ 63 ->
  exists r, isub w it n = Ok r /\ valid_it w r /\ addr w r = addr w it - n.
Proof.
  intros w it n Hw Hv Hn. pose proof (valid_pos w Hw).
  eexists. split; [apply isub_eq; assumption|]. split.
  - apply norm_valid. lia.
  - rewrite norm_addr by lia. unfold addr. lia.
Qed.

Lemma distance_assert : forall w f l, valid_w w -> valid_it w f -> valid_it w l ->
  - 2 ^ 63 + w <= addr w l - addr w f < 0 -> distance w f l = Assert.
Proof.
  intros w f l Hw Hf Hl H. pose proof (valid_pos w Hw).
  unfold distance, assert_viable.
  rewrite idiff_full by (assumption || lia). cbn [rbind].
  destruct (Z.leb_spec 0 (addr w l - addr w f)); [lia|reflexivity].
Qed.

Lemma distance_full : forall w f l, valid_w w -> valid_it w f -> valid_it w l ->
  0 <= addr w l - addr w f < 2 ^ 63 - w ->
  distance w f l = Ok (addr w l - addr w f).
Proof.
  intros w f l Hw Hf Hl H. pose proof (valid_pos w Hw).
  unfold distance, assert_viable.
  rewrite idiff_full by (assumption || lia). cbn [rbind].
  destruct (Z.leb_spec 0 (addr w l - addr w f)); [|lia]. cbn [rbind].
  unfold addr in *. rewrite swrap64_small by lia. f_equal. lia.
Qed.

Lemma iter_inc_addr : forall w n it, 0 < w -> valid_it w it ->
  valid_it w (Nat.iter n (iinc w) it) /\
  addr w (Nat.iter n (iinc w) it) = addr w it + Z.of_nat n.
Proof.
  intros w n it Hw Hv. induction n as [|n [IH1 IH2]].
  - cbn. split; [assumption|lia].
  - change (Nat.iter (S n) (iinc w) it) with (iinc w (Nat.iter n (iinc w) it)). destruct (iinc_spec w _ Hw IH1) as [H1 H2].
    split; [assumption|]. rewrite H2, IH2. lia.
Qed.

Lemma iter_dec_addr : forall w n it, 0 < w -> valid_it w it ->
  valid_it w (Nat.iter n (idec w) it) /\
  addr w (Nat.iter n (idec w) it) = addr w it - Z.of_nat n.
Proof.
  intros w n it Hw Hv. induction n as [|n [IH1 IH2]].
  - cbn. split; [assumption|lia].
  - change (Nat.iter (S n) (idec w) it) with (idec w (Nat.iter n (idec w) it)). destruct (idec_spec w _ Hw IH1) as [H1 H2].
    split; [assumption|]. rewrite H2, IH2. lia.
Qed.

Lemma comparisons_addr : forall w l r,
  valid_w w -> valid_it w l -> valid_it w r ->
  (ieq l r = true <-> addr w l = addr w r) /\
  (ine l r = true <-> addr w l <> addr w r) /\
  (ilt l r = true <-> addr w l < addr w r) /\
  (ile l r = true <-> addr w l <= addr w r) /\
  (igt l r = true <-> addr w l > addr w r) /\
  (ige l r = true <-> addr w l >= addr w r).
Proof.
  intros w l r Hw Hl Hr. pose proof (valid_pos w Hw).
  destruct (cmp_addr w l r ltac:(lia) Hl Hr) as (H1 & H2 & H3 & H4 & H5).
  rewrite (ieq_addr w) by (assumption || lia). rewrite H1, H2, H3, H4, H5. lia.
Qed.

Lemma idiff_iadd : forall w it n r,
  valid_w w -> valid_it w it -> - 2 ^ 63 + w <= n < 2 ^ 63 - w ->
  iadd w it n = Ok r -> idiff w r it = Ok n.
Proof.
  intros w it n r Hw Hv Hn H. pose proof (valid_pos w Hw). unfold valid_it in Hv.
  destruct (iadd_exact w it n Hw Hv ltac:(lia)) as (r' & E & Hr & Ha).
  rewrite H in E. injection E as <-. rewrite idiff_full by (assumption || lia).
  f_equal. lia.
Qed.

Lemma iadd_idiff : forall w a b,
  valid_w w -> valid_it w a -> valid_it w b ->
  - 2 ^ 63 + w <= addr w a - addr w b < 2 ^ 63 - w ->
  exists n, idiff w a b = Ok n /\ iadd w b n = Ok a.
Proof.
  intros w a b Hw Ha Hb H. pose proof (valid_pos w Hw).
  eexists. split; [apply idiff_full; assumption|]. unfold valid_it in Hb.
  destruct (iadd_exact w b (addr w a - addr w b) Hw Hb ltac:(lia)) as (r & E & Hr & Hra).
  rewrite E. f_equal. apply (addr_inj w); try assumption; lia.
Qed.

Lemma distance_cases : forall w a b,
  valid_w w -> valid_it w a -> valid_it w b ->
  - 2 ^ 63 + w <= addr w b - addr w a < 2 ^ 63 - w ->
  distance w a b =
  if addr w a <=? addr w b then Ok (addr w b - addr w a) else Assert.
Proof.
  intros w a b Hw Ha Hb H. destruct (Z.leb_spec (addr w a) (addr w b)).
  - apply distance_full; try assumption. lia.
  - apply distance_assert; try assumption. lia.
Qed.

Lemma unit_steps : forall w it, valid_w w -> valid_it w it ->
  valid_it w (iinc w it) /\ addr w (iinc w it) = addr w it + 1 /\
  valid_it w (idec w it) /\ addr w (idec w it) = addr w it - 1 /\
  idec w (iinc w it) = it /\ iinc w (idec w it) = it /\
  ipostinc w it = (it, iinc w it) /\ ipostdec w it = (it, idec w it).
Proof.
  intros w it Hw Hv. pose proof (valid_pos w Hw) as Hp.
  assert (Hp0 : 0 < w) by lia.
  destruct (iinc_spec w it Hp0 Hv) as [A1 A2].
  destruct (idec_spec w it Hp0 Hv) as [B1 B2].
  destruct (idec_spec w _ Hp0 A1) as [C1 C2].
  destruct (iinc_spec w _ Hp0 B1) as [D1 D2].
  repeat (split; [assumption|]).
  split; [apply (addr_inj w); try assumption; lia|].
  split; [apply (addr_inj w); try assumption; lia|]. split; reflexivity.
Qed.

Lemma repeated_steps : forall w it n, valid_w w -> valid_it w it ->
  Z.of_nat n < 2 ^ 63 - w ->
  iadd w it (Z.of_nat n) = Ok (Nat.iter n (iinc w) it) /\
  isub w it (Z.of_nat n) = Ok (Nat.iter n (idec w) it).
Proof.
  intros w it n Hw Hv Hn. pose proof (valid_pos w Hw) as Hp.
  destruct (iter_inc_addr w n it ltac:(lia) Hv) as [A1 A2].
  destruct (iter_dec_addr w n it ltac:(lia) Hv) as [B1 B2].
  pose proof Hv as Hv'. unfold valid_it in Hv'.
  destruct (iadd_exact w it (Z.of_nat n) Hw Hv ltac:(lia)) as (r & E & Hr & Ha).
  destruct (isub_exact w it (Z.of_nat n) Hw Hv ltac:(lia)) as (s & F & Hs & Hb).
  rewrite E, F. split; f_equal; apply (addr_inj w); try assumption; lia.
Qed.

Lemma is_within_any : forall w n first last fuel,
  valid_w w -> valid_it w first -> valid_it w last -> 0 <= n ->
  0 <= addr w last - addr w first -> n / w < Z.of_nat fuel ->
  is_within_ct w fuel n first last = Ok (addr w last - addr w first <=? n).
Proof. intros. apply is_within_ct_eq; assumption. Qed.

Lemma is_within_rt_eq : forall w n first last,
  valid_w w -> valid_it w first -> valid_it w last ->
  0 <= addr w last - addr w first < 2 ^ 63 - w ->
  is_within_rt w first last n = Ok (addr w last - addr w first <=? n).
Proof.
  intros. unfold is_within_rt. rewrite distance_full by assumption. reflexivity.
Qed.
