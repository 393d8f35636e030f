(** bit_vector in the BITLIB_HWY build does what it does in the plain build. *)
From Coq Require Import ZArith Bool List Lia.
From Coq Require Import ZifyBool.
From Verif Require Import Base WordOps IterModel RefModel PopcntModel AlgModel ShiftModel
  HwyModel VecModel HwyVecModel ThreadModel Spec SpecHwy SpecStd SpecVec SpecPoint
  ProofBase ProofIter ProofWord ProofRange ProofShift ProofHwy ProofVacated ProofOracle
  ProofThread ProofSteps ProofVec ProofVec2 ProofVec3 ProofHwyRight.
Import ListNotations.
Open Scope Z_scope.
Ltac Zify.zify_post_hook ::= idtac.

(** Two runs end alike: the same value and the same words, or the same error. *)
Definition alike {A} (c1 : M A) (m1 : mem) (c2 : M A) (m2 : mem) : Prop :=
  match c1 m1 with
  | Ok (r, m) => exists m', c2 m2 = Ok (r, m') /\ forall a, m a = m' a
  | UB k => c2 m2 = UB k
  | Assert => c2 m2 = Assert
  | Throw => c2 m2 = Throw
  | Fuel => c2 m2 = Fuel
  end.

Lemma alike_ext : forall A (c : M A) m1 m2, steps false c -> (forall a, m1 a = m2 a) ->
  alike c m1 c m2.
Proof.
  intros A c m1 m2 [t [_ T]] H. unfold alike. rewrite <- !T. apply alone_ext, H.
Qed.

Lemma alike_agree : forall A (c1 c2 : M A) m, agree c1 c2 m -> alike c1 m c2 m.
Proof.
  intros A c1 c2 m (v & m1 & m2 & E1 & E2 & H). unfold alike. rewrite E1. exists m2. auto.
Qed.

Lemma alike_trans : forall A (c1 c2 c3 : M A) m1 m2 m3, alike c1 m1 c2 m2 ->
  alike c2 m2 c3 m3 -> alike c1 m1 c3 m3.
Proof.
  intros A c1 c2 c3 m1 m2 m3 H1 H2. unfold alike in *.
  destruct (c1 m1) as [[r m]|k| | |]; try (rewrite H1 in H2; exact H2).
  destruct H1 as (m' & E & H). rewrite E in H2. destruct H2 as (m'' & E2 & H2).
  exists m''. split; [exact E2|]. intros a. rewrite H. apply H2.
Qed.

Lemma alike_bind : forall A B (c1 c2 : M A) (k1 k2 : A -> M B) m1 m2, alike c1 m1 c2 m2 ->
  (forall a m1' m2', c1 m1 = Ok (a, m1') -> (forall x, m1' x = m2' x) ->
     alike (k1 a) m1' (k2 a) m2') ->
  alike (bind c1 k1) m1 (bind c2 k2) m2.
Proof.
  intros A B c1 c2 k1 k2 m1 m2 H1 H2. unfold alike in *. unfold bind.
  destruct (c1 m1) as [[r m]|k| | |]; try (rewrite H1; reflexivity).
  destruct H1 as (m' & E & H). rewrite E. apply (H2 r m m' eq_refl H).
Qed.

(** A pure step in front. *)
Lemma alike_lift : forall A B (r : res A) (k1 k2 : A -> M B) m1 m2,
  (forall a, r = Ok a -> alike (k1 a) m1 (k2 a) m2) ->
  alike (bind (lift r) k1) m1 (bind (lift r) k2) m2.
Proof.
  intros A B r k1 k2 m1 m2 H. unfold alike, bind, lift in *.
  destruct r as [a|k| | |]; try reflexivity. apply H. reflexivity.
Qed.

(** The storage after two such runs. *)
Lemma words_of_ext : forall n m m', (forall a, m a = m' a) -> words_of n m = words_of n m'.
Proof. intros n m m' H. unfold words_of. apply map_ext. intros k. rewrite H. reflexivity. Qed.

Lemma on_words_alike : forall A l (c1 c2 : M A),
  alike c1 (vmem l nomem) c2 (vmem l nomem) -> on_words l c1 = on_words l c2.
Proof.
  intros A l c1 c2 H. unfold on_words, on_words_ext, alike in *.
  destruct (c1 (vmem l nomem)) as [[r m]|k| | |]; try (rewrite H; reflexivity).
  destruct H as (m' & E & H). rewrite E. cbn [rbind]. rewrite (words_of_ext _ m m' H). reflexivity.
Qed.

Lemma on_words_ext_alike : forall A B l ext (c1 c2 : M A) (k : A -> list Z -> res B),
  alike c1 (vmem l ext) c2 (vmem l ext) ->
  (let? (a, l', _) := on_words_ext l ext c1 in k a l') =
  (let? (a, l', _) := on_words_ext l ext c2 in k a l').
Proof.
  intros A B l ext c1 c2 k H. unfold on_words_ext, alike in *.
  destruct (c1 (vmem l ext)) as [[r m]|e| | |]; try (rewrite H; reflexivity).
  destruct H as (m' & E & H). rewrite E. cbn [rbind]. rewrite (words_of_ext _ m m' H). reflexivity.
Qed.

(** The three algorithms, for every number of positions. *)
Lemma shifted_left_same : forall w m m1 m2 F L n, 0 < w -> 0 <= n ->
  shifted_left w m m1 F L n -> shifted_left w m m2 F L n -> forall a, m1 a = m2 a.
Proof.
  intros w m m1 m2 F L n Hw Hn (g1 & U1 & A1 & B1) (g2 & U2 & A2 & B2).
  apply (updated_same w m m1 m2 F L g1 Hw U1). eapply updated_ext; [exact U2|].
  intros i Hi. destruct (Z.ltb_spec i (L - n)) as [C|C].
  - rewrite A1, A2 by lia. reflexivity.
  - rewrite B1, B2 by lia. reflexivity.
Qed.

Lemma shifted_right_same : forall w m m1 m2 F L n, 0 < w -> 0 <= n ->
  shifted_right w m m1 F L n -> shifted_right w m m2 F L n -> forall a, m1 a = m2 a.
Proof.
  intros w m m1 m2 F L n Hw Hn (g1 & U1 & A1 & B1) (g2 & U2 & A2 & B2).
  apply (updated_same w m m1 m2 F L g1 Hw U1). eapply updated_ext; [exact U2|].
  intros i Hi. destruct (Z.leb_spec (F + n) i) as [C|C].
  - rewrite A1, A2 by lia. reflexivity.
  - rewrite B1, B2 by lia. reflexivity.
Qed.

Lemma shift_left_hwy_same : forall p h w m first last n,
  valid_w w -> vector_fits h w -> wf_mem w m -> good_range w m first last ->
  (0 < n < addr w last - addr w first -> shift_defined p w (addr w first) (addr w last)) ->
  agree (shift_left_hwy p h w first last n) (shift_left p w first last n) m.
Proof.
  intros p h w m first last n Vw Hfit Hwf Hr Hd. pose proof (valid_pos w Vw) as Pw.
  destruct (shifts_hwy_none p h w m first last n Vw Hr) as [N1 N2].
  destruct (shift_left_none p w m first last n Vw Hr) as [S1 S2].
  destruct (Z.leb_spec n 0) as [C|C].
  { exists last, m, m. split; [apply N1, C|]. split; [apply S1, C|reflexivity]. }
  destruct (Z.leb_spec (addr w last - addr w first) n) as [D|D].
  { exists first, m, m. split; [apply N2; assumption|]. split; [apply S2; assumption|reflexivity]. }
  pose proof (shift_cond p w first last Vw ltac:(apply Hr) ltac:(apply Hr) (Hd (conj C D))) as Hg.
  destruct (shift_left_hwy_state p h w m first last n Vw Hfit Hwf Hr ltac:(lia) Hg)
    as (r1 & m1 & E1 & V1 & A1 & T1).
  destruct (shift_left_state p w m first last n Vw Hwf Hr ltac:(lia) Hg)
    as (r2 & m2 & E2 & V2 & A2 & T2).
  assert (r2 = r1) as -> by (apply (addr_inj w); try assumption; lia).
  exists r1, m1, m2. split; [exact E1|]. split; [exact E2|].
  apply (shifted_left_same w m m1 m2 (addr w first) (addr w last) n); (assumption || lia).
Qed.

Lemma shift_right_hwy_same : forall p h w m first last n,
  valid_w w -> vector_fits h w -> wf_mem w m -> good_range w m first last ->
  (n mod w <> 0 -> forall a, looked_at h w (ib first) ((ib last * w - n) / w) (ib last) a ->
     may_point p m a) ->
  (0 < n < addr w last - addr w first -> shift_defined p w (addr w first) (addr w last)) ->
  agree (shift_right_hwy p h w first last n) (shift_right p w first last n) m.
Proof.
  intros p h w m first last n Vw Hfit Hwf Hr Hroom Hd. pose proof (valid_pos w Vw) as Pw.
  destruct (shifts_hwy_none p h w m first last n Vw Hr) as [N1 N2].
  destruct (shift_right_none p w m first last n Vw Hr) as [S1 S2].
  destruct (Z.leb_spec n 0) as [C|C].
  { exists first, m, m. split; [apply N1, C|]. split; [apply S1, C|reflexivity]. }
  destruct (Z.leb_spec (addr w last - addr w first) n) as [D|D].
  { exists last, m, m. split; [apply N2; assumption|]. split; [apply S2; assumption|reflexivity]. }
  pose proof (shift_cond p w first last Vw ltac:(apply Hr) ltac:(apply Hr) (Hd (conj C D))) as Hg.
  destruct (shift_right_all p h w m first last n Vw Hfit Hwf Hr (conj C D) Hg Hroom) as (r1 & m1 & E1 & V1 & A1 & T1).
  destruct (shift_right_state p w m first last n Vw Hwf Hr ltac:(lia) Hg)
    as (r2 & m2 & E2 & V2 & A2 & T2).
  assert (r2 = r1) as -> by (apply (addr_inj w); try assumption; lia).
  exists r1, m1, m2. split; [exact E1|]. split; [exact E2|].
  apply (shifted_right_same w m m1 m2 (addr w first) (addr w last) n); (assumption || lia).
Qed.

Lemma fill_hwy_same : forall p h w m first last b,
  valid_w w -> vector_fits h w -> wf_mem w m -> good_range w m first last ->
  agree (fill_hwy p h w first last b) (fill p w first last b) m.
Proof.
  intros p h w m first last b Vw Hfit Hwf Hr. pose proof (valid_pos w Vw) as Pw.
  destruct (fill_hwy_ok p h w m first last b Vw Hfit Hwf Hr) as (m1 & E1 & U1).
  destruct (fill_ok p w m first last b Vw Hwf Hr) as (m2 & E2 & U2).
  exists tt, m1, m2. split; [exact E1|]. split; [exact E2|].
  exact (updated_same w m m1 m2 _ _ _ ltac:(lia) U1 U2).
Qed.

(** begin() + i *)
Lemma iadd_begin : forall w i it, valid_w w -> 0 <= i <= 2 ^ 62 ->
  iadd w vbegin i = Ok it -> valid_it w it /\ addr w it = i.
Proof.
  intros w i it Vw Hi E. pose proof (valid_pos w Vw) as Pw.
  pose proof (begin_valid w ltac:(lia)) as Vb.
  assert (H : rwp (iadd w vbegin i) (fun it => valid_it w it /\ addr w it = i)).
  { apply rwp_iadd; [assumption..|lia|]. intros it' V A. rewrite begin_addr in A. split; [exact V|lia]. }
  rewrite E in H. exact H.
Qed.

(** An insertion forms no pointer in front of the storage. *)
Definition behind (p : policy) (h : simd_unit) (w i c n : Z) : Prop :=
  match p with Hw _ => True | _ => inserts_inside h w i c n end.

Lemma behind_room : forall p h w f e c l ext, valid_w w -> vector_fits h w ->
  behind p h w (addr w f) c (addr w e) ->
  valid_it w f -> valid_it w e -> 0 <= addr w e <= Z.of_nat (length l) * w ->
  c mod w <> 0 -> forall a, looked_at h w (ib f) ((ib e * w - c) / w) (ib e) a ->
  may_point p (vmem l ext) a.
Proof.
  intros p h w f e c l ext Vw Hfit B V1 V2 A Hc a L. pose proof (valid_pos w Vw) as Pw.
  pose proof (addr_base w f ltac:(lia) V1) as D1. pose proof (addr_base w e ltac:(lia) V2) as D2.
  destruct Hfit as [Hlan _].
  assert (K : 0 <= a -> vmem l ext a <> None).
  { intros Ha. destruct L as (j & J1 & J2 & _). unfold addr, valid_it, wsize in *.
    unfold vmem. replace (a <? 0) with false by lia.
    unfold wsize. replace (a <? Z.of_nat (length l)) with true by nia. discriminate. }
  unfold behind, inserts_inside, may_point in *. rewrite D1, D2 in B.
  destruct p; [left; apply K, (B Hc a L)..|exact I].
Qed.

Lemma insert1_hwy_same : forall p h w v pos b, valid_w w -> vector_fits h w -> vec_ok w v ->
  vlen v + w <= max_bits -> valid_it w pos -> 0 <= addr w pos <= vlen v ->
  behind p h w (addr w pos) 1 (vlen v + 1) ->
  (addr w pos < vlen v -> shift_defined p w (addr w pos) (vlen v + 1)) ->
  insert1_hwy p h w v pos b = insert1 p w v pos b.
Proof.
  intros p h w v pos b Vw Hfit V Hb Vp Hi Hroom Hd. pose proof (valid_pos w Vw) as Pw.
  destruct (room_ok w v Vw V Hb) as (R1 & R2 & R3).
  pose proof V as (V1 & V2 & V3). unfold max_bits in *.
  unfold insert1_hwy, insert1. fold (room w v).
  rewrite distance_eq by (assumption || apply begin_valid || rewrite ?begin_addr; lia).
  rewrite begin_addr, Z.sub_0_r. cbn [rbind]. cbv zeta.
  rewrite wrap_small, swrap64_small by lia.
  assert (E : on_words (room w v)
    (let! f := iadd w vbegin (addr w pos) in
     let! e := iadd w vbegin (vlen v + 1) in
     shift_right_hwy p h w f e 1 ;;
     let! r := iindex p w vbegin (addr w pos) in ref_assign_val w r b) =
    on_words (room w v)
    (let! f := iadd w vbegin (addr w pos) in
     let! e := iadd w vbegin (vlen v + 1) in
     shift_right p w f e 1 ;;
     let! r := iindex p w vbegin (addr w pos) in ref_assign_val w r b)).
  { apply on_words_alike.
    apply alike_lift. intros f Ef. apply iadd_begin in Ef; [|assumption|lia].
    apply alike_lift. intros e Ee. apply iadd_begin in Ee; [|assumption|lia].
    apply alike_bind.
    - apply alike_agree, shift_right_hwy_same; try assumption.
      { apply vmem_wf; [assumption|apply nomem_wf]. }
      { split; [apply Ef|]. split; [apply Ee|]. unfold max_bits. split; [lia|].
        apply vmem_mapped; lia. }
      { destruct Ef as [Ef1 Ef2]. destruct Ee as [Ee1 Ee2].
        apply (behind_room p h w); try assumption; rewrite ?Ef2, ?Ee2; [assumption|lia]. }
      destruct Ef as [_ ->]. destruct Ee as [_ ->]. intros K. apply Hd. lia.
    - intros a m1 m2 _ H. apply alike_ext; [|exact H]. repeat sstep. }
  rewrite E. reflexivity.
Qed.

Lemma insert_n_hwy_same : forall p h w v pos c b, valid_w w -> vector_fits h w -> vec_ok w v ->
  0 <= c -> (0 < c -> grown w v (vlen v + c)) -> valid_it w pos -> 0 <= addr w pos <= vlen v ->
  behind p h w (addr w pos) c (vlen v + c) ->
  (0 < c -> addr w pos < vlen v -> shift_defined p w (addr w pos) (vlen v + c)) ->
  insert_n_hwy p h w v pos c b = insert_n p w v pos c b.
Proof.
  intros p h w v pos c b Vw Hfit V Hc Hb Vp Hi Hroom Hd. pose proof (valid_pos w Vw) as Pw.
  pose proof V as (V1 & V2 & V3). unfold max_bits in V3.
  unfold insert_n_hwy, insert_n.
  rewrite distance_eq by (assumption || apply begin_valid || rewrite ?begin_addr; lia).
  rewrite begin_addr, Z.sub_0_r. cbn [rbind].
  destruct (Z.eqb_spec c 0) as [C|C]; [reflexivity|].
  destruct (Hb ltac:(lia)) as (ws & Eg & R1 & R2 & R3). unfold max_bits in R2.
  rewrite Eg. cbn [rbind]. cbv zeta. rewrite wrap_small, !swrap64_small by lia.
  assert (E : on_words ws
    (let! f := iadd w vbegin (addr w pos) in
     let! e := iadd w vbegin (vlen v + c) in
     shift_right_hwy p h w f e c ;;
     let! g := iadd w f c in fill_hwy p h w f g b) =
    on_words ws
    (let! f := iadd w vbegin (addr w pos) in
     let! e := iadd w vbegin (vlen v + c) in
     shift_right p w f e c ;;
     let! g := iadd w f c in fill p w f g b)).
  { apply on_words_alike.
    apply alike_lift. intros f Ef. apply iadd_begin in Ef; [|assumption|lia].
    apply alike_lift. intros e Ee. apply iadd_begin in Ee; [|assumption|lia].
    assert (Wf : wf_mem w (vmem ws nomem)) by (apply vmem_wf; [assumption|apply nomem_wf]).
    assert (G : good_range w (vmem ws nomem) f e).
    { split; [apply Ef|]. split; [apply Ee|]. unfold max_bits. split; [lia|].
      apply vmem_mapped; lia. }
    assert (Hd' : 0 < c < addr w e - addr w f -> shift_defined p w (addr w f) (addr w e)).
    { destruct Ef as [_ ->]. destruct Ee as [_ ->]. intros K. apply Hd; lia. }
    assert (Rf : c mod w <> 0 -> forall a,
      looked_at h w (ib f) ((ib e * w - c) / w) (ib e) a -> may_point p (vmem ws nomem) a).
    { destruct Ef as [Ef1 Ef2]. destruct Ee as [Ee1 Ee2].
      apply (behind_room p h w); try assumption; rewrite ?Ef2, ?Ee2; [assumption|lia]. }
    pose proof (shift_right_hwy_same p h w _ f e c Vw Hfit Wf G Rf Hd') as S.
    apply alike_bind; [apply alike_agree, S|].
    intros a m1 m2 E1 H. apply alike_lift. intros g Eg'.
    assert (Hg : rwp (iadd w f c) (fun it => valid_it w it /\ addr w it = addr w f + c)).
    { apply rwp_iadd; [assumption|apply Ef|lia|]. auto. }
    rewrite Eg' in Hg. cbn in Hg.
    assert (T : wf_mem w m1 /\ same_dom (vmem ws nomem) m1).
    { pose proof (ProofVec2.wp_shift_right p w (vmem ws nomem) f e c
        (fun r m => wf_mem w m /\ same_dom (vmem ws nomem) m) Vw Wf G ltac:(lia)
        ltac:(intros K; apply Hd'; lia)
        ltac:(intros r m' X1 X2 X3 X4; split; assumption)) as X.
      destruct S as (r & m1' & m2' & S1 & S2 & S3). rewrite E1 in S1. injection S1 as <- <-.
      unfold wp in X. rewrite S2 in X. destruct X as [X1 X2]. split.
      - intros x y Hx. apply (X1 x y). rewrite <- S3. exact Hx.
      - intros x. rewrite S3. apply X2. }
    eapply alike_trans; [apply alike_agree, fill_hwy_same; try assumption; [apply T|]|].
    - split; [apply Ef|]. split; [apply Hg|]. unfold max_bits. split; [lia|].
      apply (mapped_dom w (vmem ws nomem)); [apply vmem_mapped; lia|apply T].
    - apply alike_ext; [repeat sstep|exact H]. }
  rewrite E. reflexivity.
Qed.

Lemma insert_range_hwy_same : forall p h w ext v pos first last, valid_w w -> vector_fits h w ->
  vec_ok w v -> (forall a, 0 <= a -> ext a = None) -> wf_mem w ext ->
  good_range w ext first last ->
  (addr w first < addr w last -> grown w v (vlen v + (addr w last - addr w first))) ->
  valid_it w pos -> 0 <= addr w pos <= vlen v ->
  behind p h w (addr w pos) (addr w last - addr w first) (vlen v + (addr w last - addr w first)) ->
  (addr w first < addr w last -> addr w pos < vlen v ->
     shift_defined p w (addr w pos) (vlen v + (addr w last - addr w first))) ->
  (let? (r, v', _) := insert_range_hwy p h w ext v pos first last in Ok (r, v')) =
  (let? (r, v', _) := insert_range p w ext v pos first last in Ok (r, v')).
Proof.
  intros p h w ext v pos first last Vw Hfit V He We Hr Hb Vp Hi Hroom Hd.
  pose proof (valid_pos w Vw) as Pw. pose proof Hr as (G1 & G2 & G3 & G4).
  pose proof V as (V1 & V2 & V3). unfold max_bits in V3, G3.
  unfold insert_range_hwy, insert_range.
  rewrite !distance_eq by (assumption || apply begin_valid || rewrite ?begin_addr; lia).
  rewrite begin_addr, Z.sub_0_r. cbn [rbind]. cbv zeta.
  set (c := addr w last - addr w first) in *. rewrite (wrap_small 64 c) by lia.
  destruct (Z.eqb_spec c 0) as [C|C]; [reflexivity|].
  destruct (Hb ltac:(lia)) as (ws & Eg & R1 & R2 & R3). unfold max_bits in R2.
  rewrite Eg. cbn [rbind]. rewrite wrap_small, !swrap64_small by lia.
  assert (E : alike
    (let! f := iadd w vbegin (addr w pos) in
     let! e := iadd w vbegin (vlen v + c) in
     shift_right_hwy p h w f e c ;; copy p w first last f) (vmem ws ext)
    (let! f := iadd w vbegin (addr w pos) in
     let! e := iadd w vbegin (vlen v + c) in
     shift_right p w f e c ;; copy p w first last f) (vmem ws ext)).
  { apply alike_lift. intros f Ef. apply iadd_begin in Ef; [|assumption|lia].
    apply alike_lift. intros e Ee. apply iadd_begin in Ee; [|assumption|lia].
    apply alike_bind.
    - apply alike_agree, shift_right_hwy_same; try assumption.
      { apply vmem_wf; assumption. }
      { split; [apply Ef|]. split; [apply Ee|]. unfold max_bits. split; [lia|].
        apply vmem_mapped; lia. }
      { destruct Ef as [Ef1 Ef2]. destruct Ee as [Ee1 Ee2].
        apply (behind_room p h w); try assumption; rewrite ?Ef2, ?Ee2; [assumption|lia]. }
      destruct Ef as [_ ->]. destruct Ee as [_ ->]. intros K. apply Hd; lia.
    - intros a m1 m2 _ H. apply alike_ext; [|exact H]. repeat sstep. }
  unfold on_words_ext. unfold alike in E.
  destruct (bind _ _ (vmem ws ext)) as [[r m]|k| | |] in E |- *; try (rewrite E; reflexivity).
  destruct E as (m' & E & H). rewrite E. cbn [rbind]. rewrite (words_of_ext _ m m' H).
  destruct (iadd w vbegin (addr w pos)); reflexivity.
Qed.

Lemma erase1_hwy_same : forall p h w v pos, valid_w w -> vector_fits h w -> vec_ok w v ->
  valid_it w pos -> 0 <= addr w pos <= vlen v ->
  (addr w pos + 1 < vlen v -> shift_defined p w (addr w pos) (vlen v)) ->
  erase1_hwy p h w v pos = erase1 p w v pos.
Proof.
  intros p h w v pos Vw Hfit V Vp Hi Hd. pose proof (valid_pos w Vw) as Pw.
  pose proof V as (V1 & V2 & V3). unfold max_bits in V3.
  unfold erase1_hwy, erase1. rewrite swrap64_small by lia.
  assert (E : on_words (vwords v)
    (let! e := iadd w vbegin (vlen v) in shift_left_hwy p h w pos e 1) =
    on_words (vwords v) (let! e := iadd w vbegin (vlen v) in shift_left p w pos e 1)).
  { apply on_words_alike. apply alike_lift. intros e Ee. apply iadd_begin in Ee; [|assumption|lia].
    apply alike_agree, shift_left_hwy_same; try assumption.
    { apply vmem_wf; [assumption|apply nomem_wf]. }
    { split; [assumption|]. split; [apply Ee|]. unfold max_bits. split; [lia|].
      apply vmem_mapped; lia. }
    destruct Ee as [_ ->]. intros K. apply Hd; lia. }
  rewrite E. reflexivity.
Qed.

Lemma erase_range_hwy_same : forall p h w v first last, valid_w w -> vector_fits h w ->
  vec_ok w v -> valid_it w first -> valid_it w last ->
  0 <= addr w first <= addr w last -> addr w last <= vlen v ->
  (addr w first < addr w last < vlen v -> shift_defined p w (addr w first) (vlen v)) ->
  erase_range_hwy p h w v first last = erase_range p w v first last.
Proof.
  intros p h w v first last Vw Hfit V Vf Vl Hi Hj Hd. pose proof (valid_pos w Vw) as Pw.
  pose proof V as (V1 & V2 & V3). unfold max_bits in V3.
  unfold erase_range_hwy, erase_range.
  destruct (distance w vbegin first) as [d| | | |]; cbn [rbind]; [|reflexivity..]. cbn [rbind].
  destruct (distance w first last) as [c| | | |] eqn:Ed; cbn [rbind]; [|reflexivity..]. cbn [rbind].
  destruct (c =? 0); [reflexivity|].
  assert (E : on_words (vwords v) (let! e := vend w v in shift_left_hwy p h w first e c) =
    on_words (vwords v) (let! e := vend w v in shift_left p w first e c)).
  { apply on_words_alike. apply alike_lift. intros e Ee. unfold vend in Ee.
    rewrite swrap64_small in Ee by lia. apply iadd_begin in Ee; [|assumption|lia].
    apply alike_agree, shift_left_hwy_same; try assumption.
    { apply vmem_wf; [assumption|apply nomem_wf]. }
    { split; [assumption|]. split; [apply Ee|]. unfold max_bits. split; [lia|].
      apply vmem_mapped; lia. }
    destruct Ee as [_ ->]. rewrite (distance_eq w) in Ed by (assumption || lia).
    injection Ed as <-. intros K. apply Hd; lia. }
  rewrite E. reflexivity.
Qed.

(** fill(begin() + count, begin() + count, b) is empty whatever the storage is. *)
Lemma resize_val_hwy_same : forall p h w v count b, valid_w w -> vector_fits h w ->
  vec_ok w v -> 0 <= count <= 2 ^ 62 ->
  resize_val_hwy p h w v count b = resize_val p w v count b.
Proof.
  intros p h w v count b Vw Hfit V Hc. pose proof (valid_pos w Vw) as Pw.
  pose proof V as (V1 & V2 & V3).
  unfold resize_val_hwy, resize_val. destruct (vlen v <? count); [|reflexivity].
  rewrite swrap64_small by lia. cbv zeta.
  set (l := resize_words (vwords v) (word_count w count)).
  assert (E : on_words l
    (let! f := iadd w vbegin count in let! e := iadd w vbegin count in fill_hwy p h w f e b) =
    on_words l
    (let! f := iadd w vbegin count in let! e := iadd w vbegin count in fill p w f e b)).
  { apply on_words_alike.
    apply alike_lift. intros f Ef. apply iadd_begin in Ef; [|assumption|lia].
    apply alike_lift. intros e Ee. apply iadd_begin in Ee; [|assumption|lia].
    apply alike_agree, fill_hwy_same; try assumption.
    { apply vmem_wf; [|apply nomem_wf]. unfold l, resize_words.
      destruct (_ <=? _); [apply words_ok_firstn; assumption|].
      apply words_ok_app; [assumption|apply words_ok_zeros; lia]. }
    split; [apply Ef|]. split; [apply Ee|]. unfold max_bits. split; [lia|].
    intros i Hi'. lia. }
  rewrite E. reflexivity.
Qed.

Lemma vstep_hwy_same : forall p h w v x, valid_w w -> vector_fits h w -> vec_ok w v ->
  vpre p w (vbits w v) x ->
  match p with Hw _ => True | _ => call_inside h w (vbits w v) x end ->
  vstep_hwy p h w v x = vstep p w v x.
Proof.
  intros p h w v x Vw Hfit V Pre Hroom. pose proof (valid_pos w Vw) as Pw.
  pose proof V as (V1 & V2 & V3).
  pose proof (vbits_length w v ltac:(lia) V) as Hn.
  assert (Hmb : vlen v <= 2 ^ 62) by (unfold max_bits in V3; lia).
  destruct x; cbn [vstep_hwy vstep vpre call_inside] in *; rewrite ?Hn in Pre; rewrite ?Hn in Hroom;
    match goal with |- ?a = ?b => first [constr_eq a b; exact eq_refl | idtac] end.
  - destruct Pre as (P1 & P2 & P3).
    destruct (iadd w vbegin i) as [pos| | | |] eqn:E; cbn [rbind]; [|reflexivity..].
    apply iadd_begin in E; [|assumption|lia]. destruct E as [E1 E2].
    rewrite insert1_hwy_same; try assumption; [reflexivity|rewrite E2..]; (assumption || lia).
  - destruct Pre as (P1 & P2 & P3 & P4).
    destruct (iadd w vbegin i) as [pos| | | |] eqn:E; cbn [rbind]; [|reflexivity..].
    apply iadd_begin in E; [|assumption|lia]. destruct E as [E1 E2].
    rewrite insert_n_hwy_same; try assumption; [reflexivity| |rewrite E2..]; try (assumption || lia).
    intros _. apply grow_ok; [assumption..|lia].
  - destruct Pre as (P1 & P2 & P3 & P4 & P5 & P6 & P7). unfold max_bits in P5.
    assert (Ve : valid_it w (ext_begin src)) by (unfold valid_it, ext_begin; cbn; lia).
    assert (Ae : addr w (ext_begin src) = (- zlen src - 64) * w)
      by (unfold addr, ext_begin, wsize; cbn [ib ip]; unfold zlen; lia).
    assert (0 <= zlen src) by (unfold zlen; lia).
    destruct (iadd w vbegin i) as [pos| | | |] eqn:E; cbn [rbind]; [|reflexivity..].
    apply iadd_begin in E; [|assumption|lia]. destruct E as [E1 E2].
    assert (Hf : rwp (iadd w (ext_begin src) j)
      (fun it => valid_it w it /\ addr w it = addr w (ext_begin src) + j))
      by (apply rwp_iadd; [assumption..|lia|auto]).
    assert (Hl : rwp (iadd w (ext_begin src) k)
      (fun it => valid_it w it /\ addr w it = addr w (ext_begin src) + k))
      by (apply rwp_iadd; [assumption..|lia|auto]).
    destruct (iadd w (ext_begin src) j) as [f| | | |]; try contradiction.
    destruct (iadd w (ext_begin src) k) as [e| | | |]; try contradiction.
    cbn [rbind]. cbn in Hf, Hl. destruct Hf as [Vf Af]. destruct Hl as [Vl Al].
    rewrite insert_range_hwy_same; try assumption; [reflexivity| | | | |rewrite E2; lia| |].
    + intros a Ha. unfold ext_mem. replace (a <? -64) with false by lia.
      rewrite andb_false_r. reflexivity.
    + apply ext_wf. assumption.
    + split; [assumption|]. split; [assumption|]. unfold max_bits. split; [lia|].
      rewrite Af, Al, Ae. apply ext_mapped; lia.
    + intros _. apply grow_ok; [assumption..|lia].
    + rewrite E2, Af, Al. replace (addr w (ext_begin src) + k - (addr w (ext_begin src) + j))
        with (k - j) by lia. exact Hroom.
    + rewrite E2, Af, Al. replace (addr w (ext_begin src) + k - (addr w (ext_begin src) + j))
        with (k - j) by lia. intros K1 K2. apply P7; lia.
  - destruct Pre as (P1 & P2).
    destruct (iadd w vbegin i) as [pos| | | |] eqn:E; cbn [rbind]; [|reflexivity..].
    apply iadd_begin in E; [|assumption|lia]. destruct E as [E1 E2].
    rewrite erase1_hwy_same; try assumption; [reflexivity|rewrite E2..]; (assumption || lia).
  - destruct Pre as (P1 & P2 & P3 & P4).
    destruct (iadd w vbegin i) as [f| | | |] eqn:E; cbn [rbind]; [|reflexivity..].
    apply iadd_begin in E; [|assumption|lia]. destruct E as [E1 E2].
    destruct (iadd w vbegin j) as [e| | | |] eqn:F; cbn [rbind]; [|reflexivity..].
    apply iadd_begin in F; [|assumption|lia]. destruct F as [F1 F2].
    rewrite erase_range_hwy_same; try assumption; [reflexivity|rewrite ?E2, ?F2..]; (assumption || lia).
Qed.

Lemma vrun_hwy_gen : forall p n w os v, valid_w w -> (forall place, vector_fits (Unit n place) w) ->
  vec_ok w v -> vpre_all p w (vbits w v) (map snd os) ->
  match p with Hw _ => True | _ => calls_inside n w (vbits w v) os end ->
  vrun_hwy p n w v os = vrun p w v (map snd os).
Proof.
  intros p n w os. induction os as [|[place x] os IH]; intros v Vw Hfit V Pre Hroom; [reflexivity|].
  cbn [map snd vrun_hwy vrun] in *. destruct Pre as [P1 P2].
  rewrite vstep_hwy_same; try assumption; [|apply Hfit|].
  2:{ destruct p; [apply Hroom..|exact I]. }
  pose proof (vstep_wp p w v x Vw V P1) as H. apply rwp_exists in H.
  destruct H as ([y v1] & E & H1 & H2 & H3). cbn [fst snd] in *. rewrite E. cbn [rbind].
  rewrite IH; try assumption; [reflexivity| |].
  - rewrite H3. exact P2.
  - rewrite H3. destruct p; [apply Hroom..|exact I].
Qed.

Lemma vrun_hwy_same : forall o n w os v, valid_w w -> vector_fits (Unit n 0) w -> vec_ok w v ->
  vpre_all (Hw o) w (vbits w v) (map snd os) ->
  vrun_hwy (Hw o) n w v os = vrun (Hw o) w v (map snd os).
Proof.
  intros o n w os v Vw Hfit V Pre. apply vrun_hwy_gen; try assumption; [intros; exact Hfit|].
  exact I.
Qed.

Lemma vrun_hwy_ok : forall o n w os v, valid_w w -> vector_fits (Unit n 0) w -> vec_ok w v ->
  vpre_all (Hw o) w (vbits w v) (map snd os) ->
  exists v', vrun_hwy (Hw o) n w v os = Ok (fst (vspec_run w (vbits w v) (map snd os)), v') /\
    vec_ok w v' /\ vbits w v' = snd (vspec_run w (vbits w v) (map snd os)).
Proof.
  intros o n w os v Vw Hfit V Pre. rewrite vrun_hwy_same by assumption.
  apply vrun_ok; assumption.
Qed.

Lemma vrun_hwy_inside : forall p n w os v, valid_w w -> vector_fits (Unit n 0) w -> vec_ok w v ->
  vpre_all p w (vbits w v) (map snd os) -> calls_inside n w (vbits w v) os ->
  exists v', vrun_hwy p n w v os = Ok (fst (vspec_run w (vbits w v) (map snd os)), v') /\
    vec_ok w v' /\ vbits w v' = snd (vspec_run w (vbits w v) (map snd os)).
Proof.
  intros p n w os v Vw Hfit V Pre Hroom. rewrite vrun_hwy_gen; try assumption.
  - apply vrun_ok; assumption.
  - intros; exact Hfit.
  - destruct p; (exact I || exact Hroom).
Qed.

(** The words in front of the storage that a vector can reach. *)
Lemma looked_at_near : forall h w i c n a, valid_w w -> vector_fits h w -> 0 <= c -> 0 <= i ->
  looked_at h w (i / w) ((n / w * w - c) / w) (n / w) a -> -62 <= a.
Proof.
  intros h w i c n a Vw [H1 H2] Hc Hi (j & J1 & J2 & J3 & _). pose proof (valid_pos w Vw) as Pw.
  assert (lanes h <= 64).
  { destruct (Z.leb_spec (lanes h) 64) as [C|C]; [exact C|].
    rewrite Z.mod_small in H2 by nia. discriminate H2. }
  assert ((n / w * w - c) / w <= n / w).
  { transitivity (n / w * w / w); [apply Z.div_le_mono; lia|]. rewrite Z.div_mul; lia. }
  assert (0 <= i / w) by (apply Z.div_pos; lia). lia.
Qed.

(** An insertion that looks at a word in front of the storage. *)
Lemma shift_right_front : forall p h w ws ext f e c a, p = Strict17 \/ p = Strict20 ->
  valid_w w -> vector_fits h w -> words_ok w ws -> wf_mem w ext ->
  (forall x, -64 <= x -> ext x = None) -> valid_it w f -> valid_it w e ->
  0 <= addr w f -> addr w e <= Z.of_nat (length ws) * w <= max_bits ->
  0 < c < addr w e - addr w f -> c mod w <> 0 ->
  looked_at h w (addr w f / w) ((addr w e / w * w - c) / w) (addr w e / w) a -> a < 0 ->
  shift_right_hwy p h w f e c (vmem ws ext) = UB OutOfBounds.
Proof.
  intros p h w ws ext f e c a Hp Vw Hfit W Wx Hx V1 V2 A1 A2 Hc Hm L Ha. pose proof (valid_pos w Vw) as Pw.
  pose proof (looked_at_near h w (addr w f) c (addr w e) a Vw Hfit ltac:(lia) A1 L) as Na.
  rewrite (addr_base w f ltac:(lia) V1), (addr_base w e ltac:(lia) V2) in L.
  assert (K : forall x, -64 <= x < 0 -> vmem ws ext x = None).
  { intros x X. unfold vmem. replace (x <? 0) with true by lia. apply Hx. lia. }
  apply (shift_right_pointer p h w _ f e c a); try assumption; [| |apply K; lia..].
  - apply vmem_wf; assumption.
  - split; [exact V1|]. split; [exact V2|]. unfold max_bits in *. split; [lia|].
    apply vmem_mapped; lia.
Qed.

Lemma ext_far : forall src x, -64 <= x -> ext_mem src x = None.
Proof.
  intros src x H. unfold ext_mem. replace (x <? -64) with false by lia.
  rewrite andb_false_r. reflexivity.
Qed.

Lemma looked_at_inside : forall h w i c n a, 0 < w -> 0 <= c -> i + c <= n ->
  looked_at h w (i / w) ((n / w * w - c) / w) (n / w) a -> i + c < n.
Proof.
  intros h w i c n a Pw Hc Hn (j & J1 & J2 & J3 & _).
  destruct (Z.eq_dec (i + c) n) as [E|E]; [|lia]. exfalso.
  assert ((n / w * w - c) / w <= i / w); [|lia].
  apply Z.div_le_mono; [lia|]. pose proof (Z.mul_div_le n w Pw). lia.
Qed.

Lemma iadd_begin_ok : forall w i, valid_w w -> 0 <= i <= 2 ^ 62 ->
  exists it, iadd w vbegin i = Ok it /\ valid_it w it /\ addr w it = i.
Proof.
  intros w i Vw Hi. pose proof (valid_pos w Vw) as Pw.
  pose proof (begin_valid w ltac:(lia)) as Vb.
  assert (H : rwp (iadd w vbegin i) (fun it => valid_it w it /\ addr w it = i)).
  { apply rwp_iadd; [assumption..|lia|]. intros it' V A. rewrite begin_addr in A. split; [exact V|lia]. }
  destruct (iadd w vbegin i) as [it| | | |]; try contradiction. exists it. split; [reflexivity|exact H].
Qed.

Lemma insert_front : forall p h w v x, p = Strict17 \/ p = Strict20 -> valid_w w ->
  vector_fits h w -> vec_ok w v -> vpre p w (vbits w v) x ->
  forall i c, match x with OpInsert i' _ => i = i' /\ c = 1 | OpInsertN i' c' _ => i = i' /\ c = c'
    | OpInsertRange i' _ j k => i = i' /\ c = k - j | _ => False end ->
  forall a, c mod w <> 0 ->
  looked_at h w (i / w) (((vlen v + c) / w * w - c) / w) ((vlen v + c) / w) a -> a < 0 ->
  vstep_hwy p h w v x = UB OutOfBounds.
Proof.
  intros p h w v x Hp Vw Hfit V Pre i c Hx a Hm L Ha. pose proof (valid_pos w Vw) as Pw.
  pose proof V as (V1 & V2 & V3). pose proof (vbits_length w v ltac:(lia) V) as Hn.
  unfold max_bits in V3.
  destruct x as [| |i' b|i' c' b|i' src j k| | | | | | | | | | | | | | | |]; try contradiction;
    destruct Hx as [<- ->]; cbn [vpre] in Pre; rewrite Hn in Pre; cbn [vstep_hwy].
  - destruct Pre as (P1 & P2 & P3). unfold max_bits in P2.
    destruct (iadd_begin_ok w i Vw ltac:(lia)) as (f & Ef & Vf & Af).
    destruct (iadd_begin_ok w (vlen v + 1) Vw ltac:(lia)) as (e & Ee & Ve & Ae).
    destruct (room_ok w v Vw V P2) as (R1 & R2 & _).
    pose proof (looked_at_inside h w i 1 (vlen v + 1) a ltac:(lia) ltac:(lia) ltac:(lia) L) as Hi.
    rewrite Ef. cbn [rbind]. unfold insert1_hwy. fold (room w v).
    rewrite distance_eq by (assumption || apply begin_valid || rewrite ?begin_addr; lia).
    rewrite begin_addr, Z.sub_0_r. cbn [rbind]. cbv zeta. rewrite wrap_small, swrap64_small by lia.
    unfold on_words, on_words_ext, bind, lift. rewrite Af, Ef, Ee.
    rewrite (shift_right_front p h w (room w v) nomem f e 1 a); try assumption; rewrite ?Af, ?Ae; try lia.
    + reflexivity.
    + apply nomem_wf.
    + reflexivity.
    + exact L.
  - destruct Pre as (P1 & P2 & P3 & P4).
    destruct (iadd_begin_ok w i Vw ltac:(lia)) as (f & Ef & Vf & Af).
    destruct (iadd_begin_ok w (vlen v + c') Vw ltac:(lia)) as (e & Ee & Ve & Ae).
    destruct (grow_ok w v (vlen v + c') Vw V ltac:(lia)) as (ws & Eg & R1 & R2 & _).
    pose proof (looked_at_inside h w i c' (vlen v + c') a ltac:(lia) ltac:(lia) ltac:(lia) L) as Hi.
    assert (0 < c') by (destruct (Z.eq_dec c' 0) as [->|]; [rewrite Z.mod_0_l in Hm; lia|lia]).
    rewrite Ef. cbn [rbind]. unfold insert_n_hwy.
    rewrite distance_eq by (assumption || apply begin_valid || rewrite ?begin_addr; lia).
    rewrite begin_addr, Z.sub_0_r. cbn [rbind]. replace (c' =? 0) with false by lia.
    rewrite Eg. cbn [rbind]. cbv zeta. rewrite wrap_small, !swrap64_small by lia.
    unfold on_words, on_words_ext, bind, lift. rewrite Af, Ef, Ee.
    rewrite (shift_right_front p h w ws nomem f e c' a); try assumption; rewrite ?Af, ?Ae; try lia.
    + reflexivity.
    + apply nomem_wf.
    + reflexivity.
    + exact L.
  - destruct Pre as (P1 & P2 & P3 & P4 & P5 & P6 & P7). unfold max_bits in P5.
    assert (Vx : valid_it w (ext_begin src)) by (unfold valid_it, ext_begin; cbn; lia).
    assert (0 <= zlen src) by (unfold zlen; lia).
    destruct (iadd_begin_ok w i Vw ltac:(lia)) as (f & Ef & Vf & Af).
    destruct (iadd_begin_ok w (vlen v + (k - j)) Vw ltac:(lia)) as (e & Ee & Ve & Ae).
    destruct (grow_ok w v (vlen v + (k - j)) Vw V ltac:(lia)) as (ws & Eg & R1 & R2 & _).
    pose proof (looked_at_inside h w i (k - j) (vlen v + (k - j)) a ltac:(lia) ltac:(lia) ltac:(lia) L) as Hi.
    assert (0 < k - j)
      by (destruct (Z.eq_dec (k - j) 0) as [E0|]; [rewrite E0, Z.mod_0_l in Hm; lia|lia]).
    assert (Hf : rwp (iadd w (ext_begin src) j)
      (fun it => valid_it w it /\ addr w it = addr w (ext_begin src) + j))
      by (apply rwp_iadd; [assumption..|lia|auto]).
    assert (Hl : rwp (iadd w (ext_begin src) k)
      (fun it => valid_it w it /\ addr w it = addr w (ext_begin src) + k))
      by (apply rwp_iadd; [assumption..|lia|auto]).
    destruct (iadd w (ext_begin src) j) as [f1| | | |]; try contradiction.
    destruct (iadd w (ext_begin src) k) as [l1| | | |]; try contradiction.
    cbn in Hf, Hl. destruct Hf as [Vf1 Af1]. destruct Hl as [Vl1 Al1].
    rewrite Ef. cbn [rbind]. unfold insert_range_hwy.
    rewrite !distance_eq by (assumption || apply begin_valid || rewrite ?begin_addr; lia).
    rewrite begin_addr, Z.sub_0_r. cbn [rbind].
    replace (addr w l1 - addr w f1) with (k - j) by lia. rewrite (wrap_small 64 (k - j)) by lia.
    replace (k - j =? 0) with false by lia.
    rewrite Eg. cbn [rbind]. cbv zeta. rewrite wrap_small, !swrap64_small by lia.
    unfold on_words_ext, bind, lift. rewrite Af, Ef, Ee.
    rewrite (shift_right_front p h w ws (ext_mem src) f e (k - j) a); try assumption; rewrite ?Af, ?Ae; try lia.
    + reflexivity.
    + apply ext_wf. assumption.
    + intros x X. apply ext_far, X.
    + exact L.
Qed.

Lemma is_oob : forall A (r : res A), r = UB OutOfBounds \/ r <> UB OutOfBounds.
Proof. intros A [x|k| | |]; try (right; discriminate). destruct k; try (right; discriminate). left; reflexivity. Qed.

Lemma vstep_hwy_front : forall p h w v x, p = Strict17 \/ p = Strict20 -> valid_w w ->
  vector_fits h w -> vec_ok w v -> vpre p w (vbits w v) x ->
  vstep_hwy p h w v x <> UB OutOfBounds -> call_inside h w (vbits w v) x.
Proof.
  intros p h w v x Hp Vw Hfit V Pre E. pose proof (valid_pos w Vw) as Pw.
  pose proof (vbits_length w v ltac:(lia) V) as Hn.
  pose proof (insert_front p h w v x Hp Vw Hfit V Pre) as F.
  destruct x; try exact I; try contradiction; cbn [call_inside]; unfold inserts_inside;
    rewrite Hn; intros Hm a L; destruct (Z.leb_spec 0 a) as [C|C]; try exact C;
    exfalso; apply E.
  - exact (F _ _ (conj eq_refl eq_refl) a Hm L C).
  - exact (F _ _ (conj eq_refl eq_refl) a Hm L C).
  - exact (F _ _ (conj eq_refl eq_refl) a Hm L C).
Qed.

Lemma vrun_hwy_exact : forall p n w os v, p = Strict17 \/ p = Strict20 -> valid_w w ->
  vector_fits (Unit n 0) w -> vec_ok w v -> vpre_all p w (vbits w v) (map snd os) ->
  vrun_hwy p n w v os = UB OutOfBounds <-> ~ calls_inside n w (vbits w v) os.
Proof.
  intros p n w os v Hp Vw Hfit V Pre. split.
  { intros E K. destruct (vrun_hwy_inside p n w os v Vw Hfit V Pre K) as (v' & E' & _). congruence. }
  revert v V Pre. induction os as [|[place x] os IH]; intros v V Pre K.
  { exfalso. apply K. exact I. }
  cbn [map snd vpre_all] in *. destruct Pre as [P1 P2].
  cbn [vrun_hwy calls_inside] in *.
  destruct (is_oob _ (vstep_hwy p (Unit n place) w v x)) as [E|E]; [rewrite E; reflexivity|].
  apply vstep_hwy_front in E; try assumption.
  rewrite vstep_hwy_same; try assumption; [|destruct p; (exact I || exact E)].
  pose proof (vstep_wp p w v x Vw V P1) as H. apply rwp_exists in H.
  destruct H as ([y v1] & Ey & H1 & H2 & H3). cbn [fst snd] in *. rewrite Ey. cbn [rbind].
  rewrite IH; try assumption; [reflexivity|rewrite H3; exact P2|].
  rewrite H3. intros Q. apply K. split; assumption.
Qed.

(** A whole vector of words in front of the position is enough. *)
Lemma far_inside : forall h w i c n, 0 < w -> 0 <= c -> lanes h - 1 <= i / w ->
  inserts_inside h w i c n.
Proof.
  intros h w i c n Pw Hc Hl _ a (j & J1 & J2 & J3 & _).
  assert ((n / w * w - c) / w <= n / w); [|lia].
  transitivity (n / w * w / w); [apply Z.div_le_mono; lia|]. rewrite Z.div_mul; lia.
Qed.
