(** Histories of a bit vector under the shift rules of the language: which ones
    are defined. *)
From Coq Require Import ZArith Bool List Lia ZifyBool.
From Verif Require Import Base WordOps IterModel RefModel AlgModel ShiftModel VecModel Spec SpecVec
  ProofBase ProofIter ProofRange ProofRef ProofAlg1 ProofAlg2 ProofCopy ProofShift
  ProofUndefined ProofVec ProofVec2 ProofVec3 ProofVec4.
Import ListNotations.
Open Scope Z_scope.
Ltac Zify.zify_post_hook ::= idtac.

(** The result is an undefined shift. *)
Definition rbad {A} (r : res A) : Prop := exists k, r = UB k /\ (k = OverShift \/ k = NegShift).

Lemma shift_dec : forall p w lo hi, shift_defined p w lo hi \/ ~ shift_defined p w lo hi.
Proof.
  intros p w lo hi. unfold shift_defined.
  destruct (Z.eq_dec (lo mod w) 0) as [E|E]; [|auto].
  destruct (Z.eq_dec (hi - lo) w) as [F|F]; [|auto].
  unfold full_blend_defined. destruct p; [right; tauto| |auto].
  destruct (Z_lt_dec w 32) as [G|G]; [auto|right; tauto].
Qed.

Lemma undefined_word : forall p w f e, valid_w w -> valid_it w f -> valid_it w e ->
  ~ shift_defined p w (addr w f) (addr w e) ->
  ip f = 0 /\ ip e = 0 /\ ib e - ib f = 1 /\ ~ full_blend_defined p w.
Proof.
  intros p w f e Vw Vf Ve H. pose proof (valid_pos w Vw) as Pw. unfold shift_defined in H.
  destruct (Z.eq_dec (addr w f mod w) 0) as [E|E]; [|exfalso; tauto].
  destruct (Z.eq_dec (addr w e - addr w f) w) as [F|F]; [|exfalso; tauto].
  rewrite addr_pos in E by (assumption || lia). unfold addr in F. unfold valid_it in *.
  assert (K : w * (ib e - ib f - 1) = - ip e) by lia.
  set (d := ib e - ib f - 1) in *. assert (D : d = 0) by nia.
  split; [exact E|]. split; [nia|]. split; [lia|tauto].
Qed.

Lemma right_bad : forall p w m f e n, valid_w w -> wf_mem w m -> good_range w m f e ->
  0 < n < addr w e - addr w f -> ~ shift_defined p w (addr w f) (addr w e) ->
  bad (shift_right p w f e n) m.
Proof.
  intros p w m f e n Vw Wf G Hn H. pose proof G as (G1 & G2 & _).
  destruct (undefined_word p w f e Vw G1 G2 H) as (H1 & H2 & H3 & H4).
  assert (addr w e - addr w f = w) by (unfold addr; nia).
  apply shift_right_bad; try assumption. lia.
Qed.

Lemma left_bad : forall p w m f e n, valid_w w -> wf_mem w m -> good_range w m f e ->
  0 < n < addr w e - addr w f -> ~ shift_defined p w (addr w f) (addr w e) ->
  bad (shift_left p w f e n) m.
Proof.
  intros p w m f e n Vw Wf G Hn H. pose proof G as (G1 & G2 & _).
  destruct (undefined_word p w f e Vw G1 G2 H) as (H1 & H2 & H3 & H4).
  assert (addr w e - addr w f = w) by (unfold addr; nia).
  apply shift_left_bad; try assumption. lia.
Qed.

Lemma iadd_begin : forall w i, valid_w w -> 0 <= i <= 2 ^ 62 ->
  exists it, iadd w vbegin i = Ok it /\ valid_it w it /\ addr w it = i.
Proof.
  intros w i Vw Hi. pose proof (valid_pos w Vw) as Pw.
  assert (H : rwp (iadd w vbegin i) (fun it => valid_it w it /\ addr w it = i)).
  { apply rwp_iadd; [assumption|apply begin_valid; lia|lia|].
    intros it V A. rewrite begin_addr in A. split; [assumption|lia]. }
  apply rwp_exists in H. exact H.
Qed.

(** A shift on the storage, followed by anything. *)
Lemma words_right_bad : forall A p w ws ext i e n (k : iter -> M A), valid_w w -> words_ok w ws ->
  wf_mem w ext -> 0 <= i -> 0 < n < e - i -> e <= Z.of_nat (length ws) * w <= max_bits ->
  ~ shift_defined p w i e ->
  bad (let! f := iadd w vbegin i in
       let! l := iadd w vbegin e in
       shift_right p w f l n ;; k f) (vmem ws ext).
Proof.
  intros A p w ws ext i e n k Vw Hok We Hi Hn He H. pose proof (valid_pos w Vw) as Pw.
  unfold max_bits in *.
  destruct (iadd_begin w i Vw ltac:(lia)) as (f & Ef & Vf & Af).
  destruct (iadd_begin w e Vw ltac:(lia)) as (l & El & Vl & Al).
  destruct (right_bad p w (vmem ws ext) f l n Vw) as (u & Eu & Hu).
  - apply vmem_wf; assumption.
  - split; [assumption|]. split; [assumption|]. unfold max_bits. split; [lia|].
    apply vmem_mapped; lia.
  - lia.
  - rewrite Af, Al. assumption.
  - exists u. unfold bind, lift. rewrite Ef, El, Eu. auto.
Qed.

Lemma words_bad : forall A (c : M A) ws ext, bad c (vmem ws ext) -> rbad (on_words_ext ws ext c).
Proof. intros A c ws ext (k & E & H). exists k. unfold on_words_ext. rewrite E. auto. Qed.

Lemma rbad_bind : forall A B (r : res A) (f : A -> res B), rbad r -> rbad (rbind r f).
Proof. intros A B r f (k & -> & H). exists k. auto. Qed.

Lemma words_bad0 : forall A (c : M A) ws, bad c (vmem ws nomem) -> rbad (on_words ws c).
Proof. intros A c ws H. unfold on_words. apply rbad_bind, words_bad, H. Qed.

Lemma insert1_bad : forall p w v pos i b, valid_w w -> vec_ok w v -> vlen v + w <= max_bits ->
  valid_it w pos -> addr w pos = i -> 0 <= i < vlen v -> ~ shift_defined p w i (vlen v + 1) ->
  rbad (insert1 p w v pos b).
Proof.
  intros p w v pos i b Vw V Hb Vp Ap Hi H. pose proof (valid_pos w Vw) as Pw.
  pose proof (begin_valid w ltac:(lia)) as Vb. pose proof (begin_addr w) as Ab.
  destruct (room_ok w v Vw V Hb) as (R1 & R2 & R3). pose proof V as (V1 & V2 & V3).
  unfold max_bits in *.
  unfold insert1. rewrite distance_eq by (assumption || lia). rewrite Ap, Ab, Z.sub_0_r.
  cbn [rbind]. fold (room w v). cbv zeta. rewrite wrap_small, swrap64_small by lia.
  apply rbad_bind, words_bad0.
  apply (words_right_bad unit p w (room w v) nomem i (vlen v + 1) 1 (fun f =>
    let! r := iindex p w vbegin i in ref_assign_val w r b));
    [assumption..|apply nomem_wf|lia| |unfold max_bits; lia|assumption].
  destruct (Z.eq_dec (vlen v + 1 - i) w) as [E|E]; [lia|]. exfalso. apply H. right. left. exact E.
Qed.

Lemma insert_n_bad : forall p w v pos i c b, valid_w w -> vec_ok w v -> 0 < c ->
  vlen v + c <= 2 ^ 24 -> valid_it w pos -> addr w pos = i -> 0 <= i < vlen v ->
  ~ shift_defined p w i (vlen v + c) -> rbad (insert_n p w v pos c b).
Proof.
  intros p w v pos i c b Vw V Hc Hb Vp Ap Hi H. pose proof (valid_pos w Vw) as Pw.
  pose proof (begin_valid w ltac:(lia)) as Vb. pose proof (begin_addr w) as Ab.
  pose proof V as (V1 & V2 & V3).
  destruct (grow_ok w v (vlen v + c) Vw V ltac:(lia)) as (ws & Eg & R1 & R2 & R3).
  unfold max_bits in *.
  unfold insert_n. rewrite distance_eq by (assumption || lia). rewrite Ap, Ab, Z.sub_0_r.
  cbn [rbind]. destruct (Z.eqb_spec c 0) as [E|E]; [lia|]. rewrite Eg. cbn [rbind]. cbv zeta.
  rewrite wrap_small, !swrap64_small by lia.
  apply rbad_bind, words_bad0.
  apply (words_right_bad unit p w ws nomem i (vlen v + c) c (fun f =>
    let! g := iadd w f c in fill p w f g b));
    [assumption..|apply nomem_wf|lia|lia|unfold max_bits; lia|assumption].
Qed.

Lemma insert_range_bad : forall p w ext v pos i first last, valid_w w -> vec_ok w v ->
  wf_mem w ext -> valid_it w first -> valid_it w last -> addr w first < addr w last ->
  vlen v + (addr w last - addr w first) <= 2 ^ 24 ->
  valid_it w pos -> addr w pos = i -> 0 <= i < vlen v ->
  ~ shift_defined p w i (vlen v + (addr w last - addr w first)) ->
  rbad (insert_range p w ext v pos first last).
Proof.
  intros p w ext v pos i first last Vw V We G1 G2 Hne Hb Vp Ap Hi H.
  pose proof (valid_pos w Vw) as Pw.
  pose proof (begin_valid w ltac:(lia)) as Vb. pose proof (begin_addr w) as Ab.
  pose proof V as (V1 & V2 & V3). set (c := addr w last - addr w first) in *.
  destruct (grow_ok w v (vlen v + c) Vw V ltac:(lia)) as (ws & Eg & R1 & R2 & R3).
  unfold max_bits in *.
  unfold insert_range. rewrite distance_eq by (assumption || lia). rewrite Ap, Ab, Z.sub_0_r.
  cbn [rbind]. rewrite distance_eq by (assumption || lia). fold c. cbn [rbind]. cbv zeta.
  rewrite (wrap_small 64 c) by lia.
  destruct (Z.eqb_spec c 0) as [E|E]; [lia|]. rewrite Eg. cbn [rbind].
  rewrite wrap_small, !swrap64_small by lia.
  apply rbad_bind, words_bad.
  apply (words_right_bad iter p w ws ext i (vlen v + c) c (fun f => copy p w first last f));
    [assumption..|lia|lia|unfold max_bits; lia|assumption].
Qed.

Lemma words_left_bad : forall p w ws i e n f (r : res iter), valid_w w -> words_ok w ws ->
  0 <= i -> 0 < n < e - i -> e <= Z.of_nat (length ws) * w <= max_bits ->
  valid_it w f -> addr w f = i -> r = iadd w vbegin e ->
  ~ shift_defined p w i e ->
  bad (let! l := r in shift_left p w f l n) (vmem ws nomem).
Proof.
  intros p w ws i e n f r Vw Hok Hi Hn He Vf Af -> H. pose proof (valid_pos w Vw) as Pw.
  unfold max_bits in *.
  destruct (iadd_begin w e Vw ltac:(lia)) as (l & El & Vl & Al).
  destruct (left_bad p w (vmem ws nomem) f l n Vw) as (u & Eu & Hu).
  - apply vmem_wf; [assumption|apply nomem_wf].
  - split; [assumption|]. split; [assumption|]. unfold max_bits. split; [lia|].
    apply vmem_mapped; lia.
  - lia.
  - rewrite Af, Al. assumption.
  - exists u. unfold bind, lift. rewrite El, Eu. auto.
Qed.

Lemma erase1_bad : forall p w v pos i, valid_w w -> vec_ok w v -> valid_it w pos ->
  addr w pos = i -> 0 <= i -> i + 1 < vlen v -> ~ shift_defined p w i (vlen v) ->
  rbad (erase1 p w v pos).
Proof.
  intros p w v pos i Vw V Vp Ap Hi Hl H. pose proof (valid_pos w Vw) as Pw.
  pose proof V as (V1 & V2 & V3). unfold max_bits in *.
  unfold erase1. apply rbad_bind, words_bad0.
  apply (words_left_bad p w (vwords v) i (vlen v)); try assumption; try lia.
  - unfold max_bits. lia.
  - rewrite swrap64_small by lia. reflexivity.
Qed.

Lemma erase_range_bad : forall p w v first last i j, valid_w w -> vec_ok w v ->
  valid_it w first -> addr w first = i -> valid_it w last -> addr w last = j ->
  0 <= i < j -> j < vlen v -> ~ shift_defined p w i (vlen v) ->
  rbad (erase_range p w v first last).
Proof.
  intros p w v first last i j Vw V Vf Af Vl Al Hi Hl H. pose proof (valid_pos w Vw) as Pw.
  pose proof (begin_valid w ltac:(lia)) as Vb. pose proof (begin_addr w) as Ab.
  pose proof V as (V1 & V2 & V3). unfold max_bits in *.
  unfold erase_range. rewrite !distance_eq by (assumption || lia). cbn [rbind].
  destruct (Z.eqb_spec (addr w last - addr w first) 0) as [E|E]; [lia|].
  apply rbad_bind, words_bad0.
  apply (words_left_bad p w (vwords v) i (vlen v)); try assumption; try lia.
  - unfold max_bits. lia.
  - unfold vend. rewrite swrap64_small by lia. reflexivity.
Qed.

Lemma see_bad : forall w r, rbad r -> rbad (see_iter w r).
Proof. intros w r H. apply rbad_bind, H. Qed.

(** One call: allowed by the rules, or an undefined shift. *)
Lemma vstep_rules : forall p h w v o, valid_w w -> vec_ok w v -> vpre (Hw h) w (vbits w v) o ->
  vpre p w (vbits w v) o \/ ~ vpre p w (vbits w v) o /\ rbad (vstep p w v o).
Proof.
  intros p h w v o Vw V Pre. pose proof (valid_pos w Vw) as Pw. pose proof V as (V1 & V2 & V3).
  pose proof (vbits_length w v ltac:(lia) V) as Hn.
  pose proof (begin_valid w ltac:(lia)) as Vb. pose proof (begin_addr w) as Ab.
  assert (Hmb : vlen v <= 2 ^ 62) by (unfold max_bits in V3; lia).
  destruct o; cbn [vstep vpre] in *; try (left; exact Pre); rewrite ?Hn in *.
  - destruct Pre as (P1 & P2 & P3). destruct (Z_lt_dec i (vlen v)) as [C|C]; [|left; intuition lia].
    destruct (shift_dec p w i (vlen v + 1)) as [D|D]; [left; auto|right].
    split; [intros (_ & _ & F); apply D, F, C|].
    destruct (iadd_begin w i Vw ltac:(lia)) as (pos & E & Vp & Ap). rewrite E. cbn [rbind].
    apply see_bad, (insert1_bad p w v pos i); try assumption. lia.
  - destruct Pre as (P1 & P2 & P3 & P4).
    destruct (Z_lt_dec 0 n) as [C0|C0]; [|left; repeat split; try lia; intros; lia].
    destruct (Z_lt_dec i (vlen v)) as [C|C]; [|left; repeat split; try lia; intros; lia].
    destruct (shift_dec p w i (vlen v + n)) as [D|D]; [left; auto|right].
    split; [intros (_ & _ & _ & F); apply D, F; assumption|].
    destruct (iadd_begin w i Vw ltac:(lia)) as (pos & E & Vp & Ap). rewrite E. cbn [rbind].
    apply see_bad, (insert_n_bad p w v pos i); try assumption. lia.
  - destruct Pre as (P1 & P2 & P3 & P4 & P5 & P6 & P7).
    destruct (Z_lt_dec j k) as [C0|C0];
      [|left; repeat (split; [first [assumption|lia]|]); intros; lia].
    destruct (Z_lt_dec i (vlen v)) as [C|C];
      [|left; repeat (split; [first [assumption|lia]|]); intros; lia].
    destruct (shift_dec p w i (vlen v + (k - j))) as [D|D];
      [left; repeat (split; [assumption|]); auto|right].
    split; [intros (_ & _ & _ & _ & _ & _ & F); apply D, F; assumption|].
    unfold max_bits in P5.
    assert (Ve : valid_it w (ext_begin src)) by (unfold valid_it, ext_begin; cbn; lia).
    assert (Ae : addr w (ext_begin src) = (- zlen src - 64) * w)
      by (unfold addr, ext_begin, wsize; cbn [ib ip]; unfold zlen; lia).
    assert (0 <= zlen src) by (unfold zlen; lia).
    destruct (iadd_begin w i Vw ltac:(lia)) as (pos & E & Vp & Ap). rewrite E. cbn [rbind].
    assert (X : forall n, 0 <= n <= zlen src * w -> exists it, iadd w (ext_begin src) n = Ok it /\
      valid_it w it /\ addr w it = addr w (ext_begin src) + n).
    { intros n Hx. apply rwp_exists, rwp_iadd; [assumption..|lia|auto]. }
    destruct (X j ltac:(lia)) as (f & Ef & Vf & Af). rewrite Ef. cbn [rbind].
    destruct (X k ltac:(lia)) as (l & El & Vl & Al). rewrite El. cbn [rbind].
    apply see_bad, rbad_bind, (insert_range_bad p w _ v pos i); try assumption; try lia.
    + apply ext_wf. assumption.
    + replace (addr w l - addr w f) with (k - j) by lia. assumption.
  - destruct Pre as (P1 & P2). destruct (Z_lt_dec (i + 1) (vlen v)) as [C|C]; [|left; intuition lia].
    destruct (shift_dec p w i (vlen v)) as [D|D]; [left; auto|right].
    split; [intros (_ & F); apply D, F, C|].
    destruct (iadd_begin w i Vw ltac:(lia)) as (pos & E & Vp & Ap). rewrite E. cbn [rbind].
    apply see_bad, (erase1_bad p w v pos i); try assumption. lia.
  - destruct Pre as (P1 & P2 & P3 & P4).
    destruct (Z_lt_dec i j) as [C0|C0]; [|left; repeat split; try lia; intros; lia].
    destruct (Z_lt_dec j (vlen v)) as [C|C]; [|left; repeat split; try lia; intros; lia].
    destruct (shift_dec p w i (vlen v)) as [D|D]; [left; auto|right].
    split; [intros (_ & _ & _ & F); apply D, F; lia|].
    destruct (iadd_begin w i Vw ltac:(lia)) as (f & Ef & Vf & Af). rewrite Ef. cbn [rbind].
    destruct (iadd_begin w j Vw ltac:(lia)) as (l & El & Vl & Al). rewrite El. cbn [rbind].
    apply see_bad, (erase_range_bad p w v f l i j); try assumption. lia.
Qed.

Lemma vrun_rules : forall p h w os v, valid_w w -> vec_ok w v -> vpre_all (Hw h) w (vbits w v) os ->
  vpre_all p w (vbits w v) os \/ ~ vpre_all p w (vbits w v) os /\ rbad (vrun p w v os).
Proof.
  intros p h w os. induction os as [|o os IH]; intros v Vw V Pre; [left; exact I|].
  cbn [vpre_all vrun] in *. destruct Pre as [P1 P2].
  destruct (vstep_rules p h w v o Vw V P1) as [Q|[N B]].
  - pose proof (vstep_wp p w v o Vw V Q) as H. apply rwp_exists in H.
    destruct H as ([x v1] & E & H1 & H2 & H3). cbn [fst snd] in *.
    rewrite <- H3 in *. destruct (IH v1 Vw H2 P2) as [R|[N B]]; [left; auto|right].
    split; [tauto|]. rewrite E. cbn [rbind]. apply rbad_bind, B.
  - right. split; [tauto|]. apply rbad_bind, B.
Qed.

Lemma history_rules : forall p h w os v, valid_w w -> vec_ok w v ->
  vpre_all (Hw h) w (vbits w v) os ->
  (vpre_all p w (vbits w v) os <-> forall k, vrun p w v os <> UB k) /\
  (~ vpre_all p w (vbits w v) os ->
     exists k, vrun p w v os = UB k /\ (k = OverShift \/ k = NegShift)).
Proof.
  intros p h w os v Vw V Pre. destruct (vrun_rules p h w os v Vw V Pre) as [Q|[N B]].
  - split; [|intros; contradiction]. split; [|auto]. intros _ k E.
    destruct (vrun_ok p w os v Vw V Q) as (v' & E' & _). congruence.
  - split; [|auto]. split; [contradiction|]. intros H. exfalso.
    destruct B as (k & E & _). exact (H k E).
Qed.
