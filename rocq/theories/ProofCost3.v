(** Bounds on the accesses of the shifts and reverse. *)
From Coq Require Import ZArith Bool List Lia.
From Verif Require Import Base WordOps IterModel PopcntModel Spec ProofBase ProofIter
  AlgModel ShiftModel ReverseModel ThreadModel TraceModel SpecCost ProofCost ProofCost2.
Import ListNotations.
Open Scope Z_scope.

Lemma c_word_shift_left : forall a b n r, b - a <= r -> 0 <= r ->
  within (word_shift_left a b n) r r any.
Proof.
  intros a b n r H H0. unfold word_shift_left. destruct (Z.leb_spec n 0); [ws|].
  destruct (Z.leb_spec (b - a) n); [ws|]. cbv zeta.
  eapply within_bind; [apply c_words_copy|lia|lia|]. intros _ _. ws.
Qed.

Lemma c_word_shift_right : forall a b n r, b - a <= r -> 0 <= r ->
  within (word_shift_right a b n) r r any.
Proof.
  intros a b n r H H0. unfold word_shift_right. cbv zeta. destruct (Z.leb_spec n 0); [ws|].
  destruct (Z.leb_spec (b - a) n); [ws|].
  eapply within_bind; [apply c_words_copy_backward|lia|lia|]. intros _ _. ws.
Qed.

Lemma c_shift_left_loop : forall p w n a b c o,
  within (shift_left_loop p w n a b c o) (2 * Z.of_nat n) (Z.of_nat n) any.
Proof.
  intros p w. induction n as [|n IH]; intros; cbn [shift_left_loop]; destruct (_ <? _); ws.
  eapply within_mono; [apply IH|lia|lia|auto].
Qed.

Lemma c_shift_right_loop : forall p w n a b c o,
  within (shift_right_loop p w n a b c o) (2 * Z.of_nat n) (Z.of_nat n) any.
Proof.
  intros p w. induction n as [|n IH]; intros; cbn [shift_right_loop]; destruct (_ <? _); ws.
  eapply within_mono; [apply IH|lia|lia|auto].
Qed.

Lemma viable_full : forall w f l, valid_w w -> valid_it w f -> valid_it w l ->
  0 <= addr w l - addr w f < 2 ^ 63 - 256 -> assert_viable w f l = Ok tt.
Proof.
  intros w f l Vw Vf Vl H. pose proof (valid_pos w Vw). unfold assert_viable.
  rewrite idiff_full by (assumption || lia). cbn [rbind].
  destruct (Z.leb_spec 0 (addr w l - addr w f)); [reflexivity|lia].
Qed.

(** Moving forward does not lower the word. *)
Lemma iadd_up : forall w it n r, valid_w w -> valid_it w it -> iadd w it n = Ok r ->
  0 <= n < 2 ^ 63 - 256 -> ib it <= ib r /\ valid_it w r /\ addr w r = addr w it + n.
Proof.
  intros w it n r Vw V E H. pose proof (valid_pos w Vw).
  edestruct (iadd_exact w it n Vw V) as [r' [E' [V' A]]]; [unfold valid_it in V; lia|].
  rewrite E in E'. injection E' as <-. split; [|auto].
  pose proof (addr_base w it ltac:(lia) V) as B1. pose proof (addr_base w r ltac:(lia) V') as B2.
  rewrite <- B1, <- B2, A. apply Z.div_le_mono; lia.
Qed.

Lemma isub_down : forall w it n r, valid_w w -> valid_it w it -> isub w it n = Ok r ->
  0 <= n < 2 ^ 63 - 256 -> ib r <= ib it /\ valid_it w r /\ addr w r = addr w it - n.
Proof.
  intros w it n r Vw V E H. pose proof (valid_pos w Vw).
  edestruct (isub_exact w it n Vw V) as [r' [E' [V' A]]]; [unfold valid_it in V; lia|].
  rewrite E in E'. injection E' as <-. split; [|auto].
  pose proof (addr_base w it ltac:(lia) V) as B1. pose proof (addr_base w r ltac:(lia) V') as B2.
  rewrite <- B1, <- B2, A. apply Z.div_le_mono; lia.
Qed.

Lemma c_shift_left_align : forall p w first middle d n, valid_w w -> valid_it w first ->
  valid_it w middle -> ib first <= ib middle -> n <= d < 2 ^ 63 - 256 -> 0 <= n ->
  within (shift_left_align p w first middle d n) 4 2
    (fun '(f, mi) => ib first <= ib f /\ ib first <= ib mi).
Proof.
  intros p w first middle d n Vw V1 Vm H1 H2 H3. pose proof (valid_pos w Vw) as W.
  unfold shift_left_align. destruct (ip first =? 0); cbn [negb]; [w1; lia|].
  assert (V1' := V1). unfold valid_it in V1'.
  apply within_bind with (r1 := 4) (n1 := 2) (P := any).
  - destruct (_ <=? _); ws.
  - lia.
  - lia.
  - intros _ _. wl f Hf. wl mi Hmi. w1. unfold iadd_assign in *.
    destruct (iadd_up w first _ f Vw V1 Hf) as [F1 _]; [lia|].
    destruct (iadd_up w middle _ mi Vw Vm Hmi) as [M1 _]; [lia|]. lia.
Qed.

Lemma c_shift_left : forall p w first last n, valid_w w -> valid_it w first ->
  valid_it w last -> 0 <= addr w last - addr w first < 2 ^ 63 - 256 ->
  let T := words_of w (addr w first) (addr w last) in
  within (shift_left p w first last n) (2 * T + 12) (T + 5) any.
Proof.
  intros p w first last n Vw V1 V2 H T. pose proof (valid_pos w Vw) as W.
  pose proof (words_of_nonneg w (addr w first) (addr w last) ltac:(lia) : 0 <= T) as T0.
  unfold shift_left. cbv zeta.
  rewrite viable_full, distance_full by (assumption || lia). do 2 w1.
  wl middle Hm. destruct (Z.leb_spec n 0) as [C1|C1]; [ws|].
  destruct (Z.leb_spec (addr w last - addr w first) n) as [C2|C2]; [ws|].
  destruct (iadd_up w first n middle Vw V1 Hm) as [M1 [M2 M3]]; [lia|].
  assert (ET : T = ib last - ib first + (if ip last =? 0 then 0 else 1))
    by (apply words_of_it; assumption || lia). clearbody T.
  assert (T1 : ib last - ib first <= T) by (rewrite ET; destruct (ip last =? 0); lia).
  destruct (one_word first last); [ws|].
  destruct (Z.leb_spec (addr w last - addr w first - n) w) as [C3|C3].
  - wb c_get_word. intros x _. wb c_write_word. intros _ _. ws.
  - w1. apply within_bind with (r1 := 1) (n1 := 0) (P := any); [|lia|lia|].
    { destruct (ip last =? 0); cbn [negb]; [ws|].
      cbn. intros y. split; [lia|split; [lia|auto]]. }
    intros _ _.
    eapply within_bind; [apply c_shift_left_align; assumption || lia|lia|lia|].
    intros [f mi] [F1 F2]. destruct (ib mi =? ib last).
    + ws.
    + apply wb_lift; [lia|lia|]. intros _ _. cbv zeta. destruct (ip mi =? 0).
      * eapply within_bind with (r1 := T) (n1 := T); [apply c_word_shift_left; lia|lia|lia|].
        intros fb _. destruct (ip last =? 0); cbn [negb]; [ws|].
        w1. wb c_write_word. intros _ _. ws.
      * eapply within_bind with (r1 := 2 * T) (n1 := T); [|lia|lia|].
        { eapply within_mono; [apply c_shift_left_loop|lia|lia|]. intros a Ha. exact Ha. }
        intros [fb mb] _. cbn [ib ip].
        apply within_bind with (r1 := 2) (n1 := 1) (P := any); [|lia|lia|].
        { destruct (_ =? _); ws. }
        intros [f' mi'] _. destruct (ip last =? 0); cbn [negb]; [ws|].
        wb c_get_word. intros x' _. wb c_write_word. intros _ _. ws.
Qed.

Lemma c_shift_right_main : forall p w first last middle n T, valid_w w ->
  ib last - ib first <= T -> ib middle - ib first <= T -> 0 <= T ->
  within (shift_right_main p w first last middle n) (2 * T + 6) (T + 3) any.
Proof.
  intros p w first last middle n T Vw H1 H2 T0. unfold shift_right_main. cbv zeta.
  destruct (ip middle =? 0).
  - eapply within_bind with (r1 := T) (n1 := T); [apply c_word_shift_right; lia|lia|lia|].
    intros _ _. ws.
  - w1. apply within_bind with (r1 := 2 * T + 2) (n1 := T + 1) (P := any); [|lia|lia|].
    { destruct (w <=? a); [|ws]. unfold shift_right_words.
      eapply within_bind with (r1 := 2 * T) (n1 := T); [|lia|lia|].
      { eapply within_mono; [apply c_shift_right_loop|lia|lia|]. intros x Hx. exact Hx. }
      intros [l b] _. apply within_bind with (r1 := 2) (n1 := 1) (P := any); [|lia|lia|].
      - destruct (_ <=? _); ws.
      - intros [l' b'] _. ws. }
    intros [l mi] _. destruct (ip first =? ip mi); cbn [negb]; [ws|].
    do 3 w1. wb c_get_word. intros x _. do 2 w1. wb c_write_word. intros _ _. ws.
Qed.

Lemma c_shift_right : forall p w first last n, valid_w w -> valid_it w first ->
  valid_it w last -> 0 <= addr w last - addr w first < 2 ^ 63 - 256 ->
  let T := words_of w (addr w first) (addr w last) in
  within (shift_right p w first last n) (2 * T + 10) (T + 5) any.
Proof.
  intros p w first last n Vw V1 V2 H T. pose proof (valid_pos w Vw) as W.
  pose proof (words_of_nonneg w (addr w first) (addr w last) ltac:(lia) : 0 <= T) as T0.
  unfold shift_right. cbv zeta.
  rewrite distance_full by (assumption || lia). w1.
  wl middle Hm. destruct (Z.leb_spec n 0) as [C1|C1]; [ws|].
  destruct (Z.leb_spec (addr w last - addr w first) n) as [C2|C2]; [ws|].
  destruct (isub_down w last n middle Vw V2 Hm) as [M1 [M2 M3]]; [lia|].
  assert (ET : T = ib last - ib first + (if ip last =? 0 then 0 else 1))
    by (apply words_of_it; assumption || lia). clearbody T.
  assert (T1 : ib last - ib first <= T) by (rewrite ET; destruct (ip last =? 0); lia).
  destruct (one_word first last); [ws|].
  destruct (ip last =? 0); cbn [negb].
  - eapply within_mono; [apply c_shift_right_main with (T := T); assumption || lia|lia|lia|auto].
  - rewrite (distance_full w first middle) by (assumption || lia). do 2 w1.
    wb c_get_word. intros x _. w1. wb c_write_word. intros _ _.
    unfold valid_it in V2.
    wl mi Hmi. wl la Hla. unfold isub_assign in *.
    destruct (isub_down w middle _ mi Vw M2 Hmi) as [I1 _]; [lia|].
    destruct (isub_down w last _ la Vw V2 Hla) as [I2 _]; [lia|].
    destruct (ieq mi first); [ws|].
    eapply within_mono; [apply c_shift_right_main with (T := T); assumption || lia|lia|lia|auto].
Qed.

Lemma c_words_reverse : forall a b r, b - a <= r -> 0 <= r -> within (words_reverse a b) r r any.
Proof.
  intros a b r H H0. unfold words_reverse. eapply within_mono; [apply c_words_reverse_loop| | |auto].
  all: pose proof (Z.div_mod (b - a) 2); pose proof (Z.mod_pos_bound (b - a) 2); lia.
Qed.

Lemma c_reverse : forall p w first last, valid_w w -> valid_it w first ->
  valid_it w last -> 0 <= addr w last - addr w first <= max_bits ->
  let T := words_of w (addr w first) (addr w last) in
  within (reverse p w first last) (4 * T + 16) (3 * T + 7) any.
Proof.
  intros p w first last Vw V1 V2 H T. pose proof (valid_pos w Vw) as W.
  pose proof (words_of_nonneg w (addr w first) (addr w last) ltac:(lia) : 0 <= T) as T0.
  unfold reverse, max_bits in *. cbv zeta.
  rewrite assert_viable_eq by (assumption || lia). w1.
  destruct (Z.eqb_spec (ib first) (ib last)) as [C0|C0].
  - destruct ((ip first =? 0) && (ip last =? 0)); cbn [negb]; [|ws].
    rewrite C0, Z.sub_diag. change (Z.to_nat 0) with 0%nat. cbn [words_bitswap].
    eapply within_bind; [apply c_words_reverse with (r := 0); lia|lia|lia|]. intros _ _. ws.
  - assert (C1 : ib first < ib last) by (unfold addr, valid_it in *; nia).
    assert (ET : T = ib last - ib first + (if ip last =? 0 then 0 else 1)).
    { apply words_of_it; try assumption; try lia. unfold addr, valid_it in *. nia. }
    assert (TT : T = ib last + b2z (negb (ip last =? 0)) - ib first).
    { rewrite ET. unfold b2z. destruct (ip last =? 0); cbn [negb]; lia. }
    assert (T1 : ib last - ib first <= T) by (rewrite ET; destruct (ip last =? 0); lia).
    clearbody T. cbn [negb].
    destruct ((ip first =? 0) && (ip last =? 0)) eqn:C2.
    + eapply within_bind; [apply c_words_reverse with (r := T); lia|lia|lia|]. intros _ _.
      eapply within_mono; [apply c_words_bitswap|lia|lia|auto].
    + do 2 w1. eapply within_bind; [apply c_words_reverse with (r := T); lia|lia|lia|]. intros _ _.
      eapply within_bind; [apply c_words_bitswap|lia|lia|]. intros _ _.
      rewrite <- TT, Z2Nat.id by lia.
      apply within_bind with (r1 := 2 * T + 12) (n1 := T + 5) (P := any); [|lia|lia|].
      { assert (WT : forall e, T = e - ib first -> words_of w (addr w (It (ib first) 0)) (addr w (It e 0)) = T).
        { intros e E. rewrite words_of_it; unfold valid_it, addr; cbn [ib ip Z.eqb]; nia || lia. }
        unfold reverse_shift. destruct (Z.ltb_spec (ip first)
          (usub w (ip last) * b2z (negb (ip last =? 0)))) as [C3|C3].
        - assert (C4 : T = ib last + 1 - ib first).
          { destruct (ip last =? 0); cbn [negb b2z] in *; unfold valid_it in V1; lia. }
          eapply within_bind; [apply c_shift_left; assumption || (unfold valid_it; cbn; lia) || idtac| | |].
          + unfold addr, valid_it in *; cbn [ib ip]; lia.
          + rewrite WT by lia. lia.
          + rewrite WT by lia. lia.
          + intros _ _. rewrite WT by lia. ws.
        - destruct (_ <? ip first); [|ws].
          eapply within_bind; [apply c_shift_right; assumption || (unfold valid_it; cbn; lia) || idtac| | |].
          + unfold addr, valid_it, b2z in *; cbn [ib ip]. destruct (ip last =? 0); cbn [negb] in *; lia.
          + rewrite WT by lia. lia.
          + rewrite WT by lia. lia.
          + intros _ _. rewrite WT by lia. ws. }
      intros _ _.
      apply within_bind with (r1 := 1) (n1 := 1) (P := any); [|lia|lia|].
      { destruct (ip first =? 0); ws. }
      intros _ _. destruct (ip last =? 0); ws.
Qed.
