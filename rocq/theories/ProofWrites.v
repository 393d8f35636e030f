(** The words that fill, copy, move, copy_backward and transform write, in order (C67). *)
From Coq Require Import ZArith Bool List Lia.
From Verif Require Import Base WordOps IterModel PopcntModel Spec ProofBase ProofIter
  AlgModel ShiftModel ReverseModel ThreadModel TraceModel SpecCost SpecReads ProofTrace
  ProofCost ProofCost2.
From Verif Require TransformModel ProofCost6.
Import ListNotations.
Open Scope Z_scope.

(** If the thread returns, it has written the words a, a + 1, ... b - 1, one after the other,
    and what it returns meets [P]. *)
Fixpoint ups {A} (t : thread A) (a b : Z) (P : A -> Prop) : Prop :=
  match t with
  | Done (Ok x) => a = b /\ P x
  | Done _ => True
  | Read _ k => forall x, ups (k x) a b P
  | Write c _ k => c = a /\ a < b /\ ups k (a + 1) b P
  end.

(** The same with a, a - 1, ... b + 1. *)
Fixpoint downs {A} (t : thread A) (a b : Z) (P : A -> Prop) : Prop :=
  match t with
  | Done (Ok x) => a = b /\ P x
  | Done _ => True
  | Read _ k => forall x, downs (k x) a b P
  | Write c _ k => c = a /\ b < a /\ downs k (a - 1) b P
  end.

Lemma ups_bind : forall A B (t : thread A) (f : A -> thread B) a b c (P : A -> Prop) Q,
  ups t a b P -> b <= c -> (forall x, P x -> ups (f x) b c Q) -> ups (tbind t f) a c Q.
Proof.
  intros A B t f. induction t as [r|d k IH|d v k IH]; intros a b c P Q H L HF; cbn [ups tbind] in *.
  - destruct r; cbn [ups]; auto. destruct H as [-> H]. auto.
  - intros x. eapply IH; eauto.
  - destruct H as (H1 & H2 & H3). split; [exact H1|]. split; [lia|]. eapply IH; eauto.
Qed.

Lemma downs_bind : forall A B (t : thread A) (f : A -> thread B) a b c (P : A -> Prop) Q,
  downs t a b P -> c <= b -> (forall x, P x -> downs (f x) b c Q) -> downs (tbind t f) a c Q.
Proof.
  intros A B t f. induction t as [r|d k IH|d v k IH]; intros a b c P Q H L HF; cbn [downs tbind] in *.
  - destruct r; cbn [downs]; auto. destruct H as [-> H]. auto.
  - intros x. eapply IH; eauto.
  - destruct H as (H1 & H2 & H3). split; [exact H1|]. split; [lia|]. eapply IH; eauto.
Qed.

Lemma from_to_cons : forall a b, a < b -> from_to a b = a :: from_to (a + 1) b.
Proof.
  intros a b H. unfold from_to. replace (Z.to_nat (b - a)) with (S (Z.to_nat (b - (a + 1)))) by lia.
  cbn [seq map]. f_equal; [lia|]. rewrite <- seq_shift, map_map. apply map_ext. intros i. lia.
Qed.

Lemma from_to_empty : forall a, from_to a a = [].
Proof. intros a. unfold from_to. rewrite Z.sub_diag. reflexivity. Qed.

Lemma from_to_snoc : forall a b, a < b -> from_to a b = from_to a (b - 1) ++ [b - 1].
Proof.
  intros a b H. unfold from_to. replace (Z.to_nat (b - a)) with (Z.to_nat (b - 1 - a) + 1)%nat by lia.
  rewrite seq_app, map_app. f_equal. cbn [seq map]. f_equal. lia.
Qed.

Lemma ups_written : forall A (t : thread A) a b P, ups t a b P -> forall m x,
  alone t m = Ok x -> write_at t m = from_to a b.
Proof.
  intros A. induction t as [r|c k IH|c v k IH]; intros a b P H m x E; cbn [ups alone write_at] in *.
  - destruct r; try discriminate E. destruct H as [-> _]. symmetry. apply from_to_empty.
  - destruct (m c) as [y|]; [|discriminate]. eapply IH; eauto.
  - destruct (m c) as [y|]; [|discriminate]. destruct H as (-> & L & H).
    rewrite (from_to_cons a b) by exact L. f_equal. eapply IH; eauto.
Qed.

Lemma downs_written : forall A (t : thread A) a b P, downs t a b P -> forall m x,
  alone t m = Ok x -> write_at t m = rev (from_to (b + 1) (a + 1)).
Proof.
  intros A. induction t as [r|c k IH|c v k IH]; intros a b P H m x E; cbn [downs alone write_at] in *.
  - destruct r; try discriminate E. destruct H as [-> _]. rewrite from_to_empty. reflexivity.
  - destruct (m c) as [y|]; [|discriminate]. eapply IH; eauto.
  - destruct (m c) as [y|]; [|discriminate]. destruct H as (-> & L & H).
    rewrite (from_to_snoc (b + 1) (a + 1)) by lia. rewrite rev_app_distr. cbn [rev app].
    replace (a + 1 - 1) with a by lia. f_equal.
    rewrite (IH (a - 1) b P H _ _ E). do 2 f_equal. lia.
Qed.

(** Steps. *)
Lemma ub_ret : forall A B (x : A) (f : A -> thread B) a b Q, ups (f x) a b Q -> ups (tbind (ret x) f) a b Q.
Proof. intros. exact H. Qed.
Lemma ub_ok : forall A B (x : A) (f : A -> thread B) a b Q, ups (f x) a b Q -> ups (tbind (lift (Ok x)) f) a b Q.
Proof. intros. exact H. Qed.
Lemma ub_lift : forall A B (r : res A) (f : A -> thread B) a b Q, (forall x, r = Ok x -> ups (f x) a b Q) ->
  ups (tbind (lift r) f) a b Q.
Proof. intros A B r f a b Q H. destruct r; [apply H; reflexivity|exact I..]. Qed.
Lemma ub_load : forall B c (f : Z -> thread B) a b Q, (forall x, ups (f x) a b Q) -> ups (tbind (load c) f) a b Q.
Proof. intros. exact H. Qed.
Lemma ub_store : forall B c v (f : unit -> thread B) a b Q, c = a -> a < b -> ups (f tt) (a + 1) b Q ->
  ups (tbind (store c v) f) a b Q.
Proof. intros. cbn. auto. Qed.
Lemma u_ret : forall A (x : A) a b (P : A -> Prop), a = b -> P x -> ups (ret x) a b P.
Proof. intros. cbn. auto. Qed.
Lemma u_lift : forall A (r : res A) a b (P : A -> Prop), a = b -> (forall x, r = Ok x -> P x) -> ups (lift r) a b P.
Proof. intros A r a b P E H. destruct r; cbn; auto. Qed.
Lemma u_store : forall c v a b (P : unit -> Prop), c = a -> a + 1 = b -> P tt -> ups (store c v) a b P.
Proof. intros. cbn. split; [assumption|]. split; [lia|auto]. Qed.
Lemma ub_assoc : forall A B C (t : thread A) (f : A -> thread B) (g : B -> thread C) a b Q,
  ups (tbind t (fun x => tbind (f x) g)) a b Q -> ups (tbind (tbind t f) g) a b Q.
Proof.
  intros A B C t f g. induction t as [x|c k IH|c v k IH]; intros a b Q H; cbn [tbind ups] in *.
  - destruct x; exact H.
  - intros x. apply IH, H.
  - destruct H as (H1 & H2 & H3). auto.
Qed.
Ltac u1 :=
  match goal with
  | |- ups (tbind (ret _) _) _ _ _ => apply ub_ret
  | |- ups (tbind (lift (Ok _)) _) _ _ _ => apply ub_ok
  | |- ups (tbind (load _) _) _ _ _ => apply ub_load; intro
  | |- ups (tbind (store _ _) _) _ _ _ => apply ub_store; [lia|lia|]
  | |- ups (tbind (lift _) _) _ _ _ => apply ub_lift; intros ? ?
  | |- ups (ret _) _ _ _ => apply u_ret; [lia|]
  | |- ups (lift _) _ _ _ => apply u_lift; [lia|intros ? ?]
  | |- ups (store _ _) _ _ _ => apply u_store; [lia|lia|]
  | |- ups (let _ := _ in _) _ _ _ => cbv zeta
  | |- ups (if ?b then _ else _) _ _ _ => destruct b eqn:?
  | |- ups (tbind (tbind _ _) _) _ _ _ => apply ub_assoc
  end.
Ltac us := repeat u1; auto.

Lemma db_ret : forall A B (x : A) (f : A -> thread B) a b Q, downs (f x) a b Q -> downs (tbind (ret x) f) a b Q.
Proof. intros. exact H. Qed.
Lemma db_ok : forall A B (x : A) (f : A -> thread B) a b Q, downs (f x) a b Q -> downs (tbind (lift (Ok x)) f) a b Q.
Proof. intros. exact H. Qed.
Lemma db_lift : forall A B (r : res A) (f : A -> thread B) a b Q, (forall x, r = Ok x -> downs (f x) a b Q) ->
  downs (tbind (lift r) f) a b Q.
Proof. intros A B r f a b Q H. destruct r; [apply H; reflexivity|exact I..]. Qed.
Lemma db_load : forall B c (f : Z -> thread B) a b Q, (forall x, downs (f x) a b Q) -> downs (tbind (load c) f) a b Q.
Proof. intros. exact H. Qed.
Lemma db_store : forall B c v (f : unit -> thread B) a b Q, c = a -> b < a -> downs (f tt) (a - 1) b Q ->
  downs (tbind (store c v) f) a b Q.
Proof. intros. cbn. auto. Qed.
Lemma d_ret : forall A (x : A) a b (P : A -> Prop), a = b -> P x -> downs (ret x) a b P.
Proof. intros. cbn. auto. Qed.
Lemma d_lift : forall A (r : res A) a b (P : A -> Prop), a = b -> (forall x, r = Ok x -> P x) -> downs (lift r) a b P.
Proof. intros A r a b P E H. destruct r; cbn; auto. Qed.
Lemma d_store : forall c v a b (P : unit -> Prop), c = a -> a - 1 = b -> P tt -> downs (store c v) a b P.
Proof. intros. cbn. split; [assumption|]. split; [lia|auto]. Qed.
Lemma db_assoc : forall A B C (t : thread A) (f : A -> thread B) (g : B -> thread C) a b Q,
  downs (tbind t (fun x => tbind (f x) g)) a b Q -> downs (tbind (tbind t f) g) a b Q.
Proof.
  intros A B C t f g. induction t as [x|c k IH|c v k IH]; intros a b Q H; cbn [tbind downs] in *.
  - destruct x; exact H.
  - intros x. apply IH, H.
  - destruct H as (H1 & H2 & H3). auto.
Qed.
Ltac d1 :=
  match goal with
  | |- downs (tbind (ret _) _) _ _ _ => apply db_ret
  | |- downs (tbind (lift (Ok _)) _) _ _ _ => apply db_ok
  | |- downs (tbind (load _) _) _ _ _ => apply db_load; intro
  | |- downs (tbind (store _ _) _) _ _ _ => apply db_store; [lia|lia|]
  | |- downs (tbind (lift _) _) _ _ _ => apply db_lift; intros ? ?
  | |- downs (ret _) _ _ _ => apply d_ret; [lia|]
  | |- downs (lift _) _ _ _ => apply d_lift; [lia|intros ? ?]
  | |- downs (store _ _) _ _ _ => apply d_store; [lia|lia|]
  | |- downs (let _ := _ in _) _ _ _ => cbv zeta
  | |- downs (if ?b then _ else _) _ _ _ => destruct b eqn:?
  | |- downs (tbind (tbind _ _) _) _ _ _ => apply db_assoc
  end.
Ltac ds := repeat d1; auto.

Lemma u_get_word : forall p w it len a, ups (get_word p w it len) a a any.
Proof. intros. unfold get_word. us. Qed.

Lemma d_get_word : forall p w it len a, downs (get_word p w it len) a a any.
Proof. intros. unfold get_word. ds. Qed.

Lemma u_write_word : forall p w v it len a b, a = ib it -> len <= w ->
  b = (if w - ip it <? len then ib it + 2 else ib it + 1) ->
  0 <= ip it -> ups (write_word p w v it len) a b any.
Proof.
  intros p w v it len a b -> Hl -> Hi. unfold write_word.
  destruct (Z.ltb_spec (w - ip it) len) as [C|C]; us; lia.
Qed.

Lemma u_words_fill : forall n a v b, b = a + Z.of_nat n -> ups (words_fill n a v) a b any.
Proof. induction n as [|n IH]; intros a v b ->; cbn [words_fill]; us. apply IH. lia. Qed.

Lemma u_words_copy : forall n s a b, b = a + Z.of_nat n -> ups (words_copy n s a) a b any.
Proof. induction n as [|n IH]; intros s a b ->; cbn [words_copy]; us. apply IH. lia. Qed.

Lemma u_words_transform : forall op n s a b, b = a + Z.of_nat n -> ups (words_transform op n s a) a b any.
Proof. intros op. induction n as [|n IH]; intros s a b ->; cbn [words_transform]; us. apply IH. lia. Qed.

Lemma u_words_transform2 : forall op n s s2 a b, b = a + Z.of_nat n ->
  ups (words_transform2 op n s s2 a) a b any.
Proof. intros op. induction n as [|n IH]; intros s s2 a b ->; cbn [words_transform2]; us. apply IH. lia. Qed.

Lemma d_words_copy_backward : forall n s e a b, a = e - 1 -> b = a - Z.of_nat n ->
  downs (words_copy_backward n s e) a b any.
Proof. induction n as [|n IH]; intros s e a b -> ->; cbn [words_copy_backward]; ds. apply IH; lia. Qed.

(** The end of a range of words. *)
Lemma end_word : forall w it, 0 < w -> valid_it w it ->
  (addr w it - 1) / w + 1 = ib it + (if ip it =? 0 then 0 else 1).
Proof.
  intros w it Hw V. unfold addr, valid_it in *. destruct (Z.eqb_spec (ip it) 0) as [C|C].
  - replace (ib it * w + ip it - 1) with ((ib it - 1) * w + (w - 1)) by lia.
    rewrite Z.div_add_l by lia. rewrite (Z.div_small (w - 1)) by lia. lia.
  - replace (ib it * w + ip it - 1) with (ib it * w + (ip it - 1)) by lia.
    rewrite Z.div_add_l by lia. rewrite (Z.div_small (ip it - 1)) by lia. lia.
Qed.

Lemma u_fill : forall p w first last b, valid_w w -> valid_it w first -> valid_it w last ->
  0 < addr w last - addr w first <= max_bits ->
  ups (fill p w first last b) (ib first) ((addr w last - 1) / w + 1) any.
Proof.
  intros p w first last b Vw V1 V2 H. pose proof (valid_pos w Vw) as W.
  rewrite end_word by (assumption || lia). unfold fill, max_bits in *. cbv zeta.
  rewrite assert_viable_eq, distance_eq, is_within_eq by (assumption || lia).
  u1. u1. destruct (Z.eqb_spec (addr w last - addr w first) 0) as [C0|C0]; [lia|].
  u1. unfold addr, valid_it in *.
  destruct (Z.leb_spec (ib last * w + ip last - (ib first * w + ip first)) w) as [C1|C1].
  - u1. apply u_write_word; try lia.
    destruct (Z.ltb_spec (w - ip first) (ib last * w + ip last - (ib first * w + ip first))) as [C2|C2],
      (Z.eqb_spec (ip last) 0) as [C3|C3]; nia.
  - assert (ib first < ib last) by nia.
    eapply ups_bind with (b := ib first + (if ip first =? 0 then 0 else 1))
      (P := fun it => it = ib first + (if ip first =? 0 then 0 else 1)).
    + destruct (Z.eqb_spec (ip first) 0) as [C2|C2]; cbn [negb]; [us; lia|].
      eapply ups_bind with (b := ib first + 1); [apply u_write_word; try lia|lia|].
      * destruct (Z.ltb_spec (w - ip first) (w - ip first)); lia.
      * intros _ _. us.
    + destruct (ip first =? 0), (ip last =? 0); lia.
    + intros it ->. eapply ups_bind with (b := ib last); [apply u_words_fill|destruct (ip last =? 0); lia|].
      * destruct (ip first =? 0); lia.
      * intros _ _. destruct (Z.eqb_spec (ip last) 0) as [C3|C3]; cbn [negb]; [us|].
        apply u_write_word; cbn [ip ib mk_aligned]; try lia.
        destruct (Z.ltb_spec (w - 0) (ip last)); lia.
Qed.

(** The end of a destination that begins at [d], cut into its parts. *)
Lemma end_split : forall w d N, 0 < w -> valid_it w d -> 0 < N ->
  (addr w d + N - 1) / w + 1 =
  ib d + (if ip d =? 0 then 0 else 1) + rest_of w d N / w + (if rest_of w d N mod w =? 0 then 0 else 1).
Proof.
  intros w d N Hw Vd HN. pose proof (words_split w d N Hw Vd HN) as S. unfold words_of in S.
  destruct (Z.ltb_spec (addr w d) (addr w d + N)) as [C|C]; [|lia].
  rewrite (addr_base w d) in S by assumption. lia.
Qed.

Lemma u_copy_loop : forall p w, valid_w w -> forall n R it first b, 0 <= R < 2 ^ 63 ->
  Z.of_nat n = R / w -> b = it + R / w ->
  ups (copy_loop p w n it first R) it b (fun '(i, _, r) => i = b /\ r = R mod w).
Proof.
  intros p w Vw. pose proof (valid_pos w Vw) as W.
  induction n as [|n IH]; intros R it first b HR Hn ->; cbn [copy_loop].
  - destruct (Z.leb_spec w R) as [C|C].
    + pose proof (Z.div_le_lower_bound R w 1). lia.
    + u1. rewrite Z.mod_small by lia. split; [lia|reflexivity].
  - destruct (Z.leb_spec w R) as [C|C].
    + eapply ups_bind; [apply u_get_word|lia|]. intros x _. do 2 u1. rewrite usub_small by lia.
      assert (D : (R - w) / w = R / w - 1).
      { replace (R - w) with (R + (-1) * w) by lia. rewrite Z.div_add by lia. lia. }
      assert (E : (R - w) mod w = R mod w).
      { replace (R - w) with (R + (-1) * w) by lia. rewrite Z.mod_add by lia. reflexivity. }
      rewrite <- E. apply IH; lia.
    + rewrite Z.div_small in Hn by lia. lia.
Qed.

Lemma u_transform_loop : forall p w op, valid_w w -> forall n R it first b, 0 <= R < 2 ^ 63 ->
  Z.of_nat n = R / w -> b = it + R / w ->
  ups (transform_loop p w op n it first R) it b (fun '(i, _, r) => i = b /\ r = R mod w).
Proof.
  intros p w op Vw. pose proof (valid_pos w Vw) as W.
  induction n as [|n IH]; intros R it first b HR Hn ->; cbn [transform_loop].
  - destruct (Z.leb_spec w R) as [C|C].
    + pose proof (Z.div_le_lower_bound R w 1). lia.
    + u1. rewrite Z.mod_small by lia. split; [lia|reflexivity].
  - destruct (Z.leb_spec w R) as [C|C].
    + eapply ups_bind; [apply u_get_word|lia|]. intros x _. do 2 u1. rewrite usub_small by lia.
      assert (D : (R - w) / w = R / w - 1).
      { replace (R - w) with (R + (-1) * w) by lia. rewrite Z.div_add by lia. lia. }
      assert (E : (R - w) mod w = R mod w).
      { replace (R - w) with (R + (-1) * w) by lia. rewrite Z.mod_add by lia. reflexivity. }
      rewrite <- E. apply IH; lia.
    + rewrite Z.div_small in Hn by lia. lia.
Qed.

Lemma u_transform2_loop : forall p w op, valid_w w -> forall n R it f1 f2 b, 0 <= R < 2 ^ 63 ->
  Z.of_nat n = R / w -> b = it + R / w ->
  ups (transform2_loop p w op n it f1 f2 R) it b (fun '(i, _, _, r) => i = b /\ r = R mod w).
Proof.
  intros p w op Vw. pose proof (valid_pos w Vw) as W.
  induction n as [|n IH]; intros R it f1 f2 b HR Hn ->; cbn [transform2_loop].
  - destruct (Z.leb_spec w R) as [C|C].
    + pose proof (Z.div_le_lower_bound R w 1). lia.
    + u1. rewrite Z.mod_small by lia. split; [lia|reflexivity].
  - destruct (Z.leb_spec w R) as [C|C].
    + eapply ups_bind; [apply u_get_word|lia|]. intros x _.
      eapply ups_bind; [apply u_get_word|lia|]. intros y _. do 3 u1. rewrite usub_small by lia.
      assert (D : (R - w) / w = R / w - 1).
      { replace (R - w) with (R + (-1) * w) by lia. rewrite Z.div_add by lia. lia. }
      assert (E : (R - w) mod w = R mod w).
      { replace (R - w) with (R + (-1) * w) by lia. rewrite Z.mod_add by lia. reflexivity. }
      rewrite <- E. apply IH; lia.
    + rewrite Z.div_small in Hn by lia. lia.
Qed.

Lemma u_copy : forall p w first last d, valid_w w -> valid_it w first -> valid_it w last ->
  valid_it w d -> 0 < addr w last - addr w first <= max_bits ->
  ups (copy p w first last d) (ib d) ((addr w d + (addr w last - addr w first) - 1) / w + 1) any.
Proof.
  intros p w first last d Vw V1 V2 Vd H. pose proof (valid_pos w Vw) as W.
  rewrite end_split by (assumption || lia). unfold copy, max_bits in *. cbv zeta.
  rewrite assert_viable_eq, distance_eq by (assumption || lia). u1.
  rewrite (ieq_addr w) by (assumption || lia).
  destruct (Z.eqb_spec (addr w first) (addr w last)) as [C0|C0]; [lia|]. u1.
  set (N := addr w last - addr w first) in *.
  pose proof (rest_bound w d N Vd ltac:(lia)) as RB.
  set (R := rest_of w d N) in *.
  assert (D0 : 0 <= R / w) by (apply Z.div_pos; lia).
  assert (DM : 0 <= R mod w < w) by (apply Z.mod_pos_bound; lia).
  eapply ups_bind with (b := ib d + (if ip d =? 0 then 0 else 1))
    (P := fun '(r, f, i) => r = R /\ addr w last = addr w f + R /\ i = ib d + (if ip d =? 0 then 0 else 1)).
  - destruct (Z.eqb_spec (ip d) 0) as [C1|C1]; cbn [negb].
    + u1. unfold R, rest_of. rewrite (proj2 (Z.eqb_eq (ip d) 0) C1). split; [reflexivity|]. unfold N. lia.
    + u1. eapply ups_bind; [apply u_get_word|lia|]. intros g _.
      assert (usub w (ip d) = w - ip d) as -> by (unfold valid_it in Vd; rewrite usub_small by lia; lia).
      do 3 u1. apply ub_lift. intros f Hf. u1.
      destruct (after_part w first last d N f Vw V1 Vd eq_refl ltac:(lia) C1 Hf) as [F1 [F2 F3]]. auto.
  - destruct (R mod w =? 0); lia.
  - intros [[r f] it] [-> [F ->]]. set (it := ib d + (if ip d =? 0 then 0 else 1)).
    destruct (Z.ltb_spec 0 R) as [C1|C1].
    2:{ replace R with 0 by lia. rewrite Z.div_0_l, Z.mod_0_l by lia. cbn [Z.eqb]. us. }
    eapply ups_bind with (P := any); [|apply Z.le_refl|intros _ _; us].
    eapply ups_bind with (b := it + R / w) (P := fun '(i, _, r) => i = it + R / w /\ r = R mod w).
    + destruct ((ip f =? 0) && (w <? R)) eqn:C2.
      * destruct (whole_words w f last R Vw V2 ltac:(lia) F) as [E1 E2]. cbv zeta.
        rewrite E2, E1.
        eapply ups_bind; [apply u_words_copy; reflexivity|lia|]. intros _ _. us.
      * apply u_copy_loop; try assumption; lia.
    + destruct (R mod w =? 0); lia.
    + intros [[it' f'] r'] [-> ->].
      destruct (Z.ltb_spec 0 (R mod w)) as [C2|C2].
      * replace (R mod w =? 0) with false by lia. u1. eapply ups_bind; [apply u_get_word|lia|]. intros g _. us.
      * replace (R mod w =? 0) with true by lia. us.
Qed.

Lemma u_transform1 : forall p w op first last d, valid_w w -> valid_it w first -> valid_it w last ->
  valid_it w d -> 0 < addr w last - addr w first <= max_bits ->
  ups (transform1 p w op first last d) (ib d) ((addr w d + (addr w last - addr w first) - 1) / w + 1) any.
Proof.
  intros p w op first last d Vw V1 V2 Vd H. pose proof (valid_pos w Vw) as W.
  rewrite end_split by (assumption || lia). unfold transform1, max_bits in *. cbv zeta.
  rewrite assert_viable_eq, distance_eq by (assumption || lia). u1.
  rewrite (ieq_addr w) by (assumption || lia).
  destruct (Z.eqb_spec (addr w first) (addr w last)) as [C0|C0]; [lia|]. u1.
  set (N := addr w last - addr w first) in *.
  pose proof (rest_bound w d N Vd ltac:(lia)) as RB.
  set (R := rest_of w d N) in *.
  assert (D0 : 0 <= R / w) by (apply Z.div_pos; lia).
  assert (DM : 0 <= R mod w < w) by (apply Z.mod_pos_bound; lia).
  eapply ups_bind with (b := ib d + (if ip d =? 0 then 0 else 1))
    (P := fun '(r, f, i) => r = R /\ addr w last = addr w f + R /\ i = ib d + (if ip d =? 0 then 0 else 1)).
  - destruct (Z.eqb_spec (ip d) 0) as [C1|C1]; cbn [negb].
    + u1. unfold R, rest_of. rewrite (proj2 (Z.eqb_eq (ip d) 0) C1). split; [reflexivity|]. unfold N. lia.
    + u1. eapply ups_bind; [apply u_get_word|lia|]. intros g _.
      assert (usub w (ip d) = w - ip d) as -> by (unfold valid_it in Vd; rewrite usub_small by lia; lia).
      do 3 u1. apply ub_lift. intros f Hf. u1.
      destruct (after_part w first last d N f Vw V1 Vd eq_refl ltac:(lia) C1 Hf) as [F1 [F2 F3]]. auto.
  - destruct (R mod w =? 0); lia.
  - intros [[r f] it] [-> [F ->]]. set (it := ib d + (if ip d =? 0 then 0 else 1)).
    destruct (Z.ltb_spec 0 R) as [C1|C1].
    2:{ replace R with 0 by lia. rewrite Z.div_0_l, Z.mod_0_l by lia. cbn [Z.eqb]. us. }
    eapply ups_bind with (P := any); [|apply Z.le_refl|intros _ _; us].
    eapply ups_bind with (b := it + R / w) (P := fun '(i, _, r) => i = it + R / w /\ r = R mod w).
    + destruct ((ip f =? 0) && (w <? R)) eqn:C2.
      * destruct (whole_words w f last R Vw V2 ltac:(lia) F) as [E1 E2]. cbv zeta.
        rewrite E2, E1.
        eapply ups_bind; [apply u_words_transform; reflexivity|lia|]. intros _ _. us.
      * apply u_transform_loop; try assumption; lia.
    + destruct (R mod w =? 0); lia.
    + intros [[it' f'] r'] [-> ->].
      destruct (Z.ltb_spec 0 (R mod w)) as [C2|C2].
      * replace (R mod w =? 0) with false by lia. u1. eapply ups_bind; [apply u_get_word|lia|]. intros g _. us.
      * replace (R mod w =? 0) with true by lia. us.
Qed.

Lemma u_transform2 : forall p w op first last first2 d, valid_w w -> valid_it w first -> valid_it w last ->
  valid_it w d -> 0 < addr w last - addr w first <= max_bits ->
  ups (transform2 p w op first last first2 d) (ib d) ((addr w d + (addr w last - addr w first) - 1) / w + 1) any.
Proof.
  intros p w op first last first2 d Vw V1 V2 Vd H. pose proof (valid_pos w Vw) as W.
  rewrite end_split by (assumption || lia). unfold transform2, max_bits in *. cbv zeta.
  rewrite assert_viable_eq, distance_eq by (assumption || lia). u1.
  rewrite (ieq_addr w) by (assumption || lia).
  destruct (Z.eqb_spec (addr w first) (addr w last)) as [C0|C0]; [lia|]. u1.
  set (N := addr w last - addr w first) in *.
  pose proof (rest_bound w d N Vd ltac:(lia)) as RB.
  set (R := rest_of w d N) in *.
  assert (D0 : 0 <= R / w) by (apply Z.div_pos; lia).
  assert (DM : 0 <= R mod w < w) by (apply Z.mod_pos_bound; lia).
  eapply ups_bind with (b := ib d + (if ip d =? 0 then 0 else 1))
    (P := fun '(r, f, _, i) => r = R /\ addr w last = addr w f + R /\ i = ib d + (if ip d =? 0 then 0 else 1)).
  - destruct (Z.eqb_spec (ip d) 0) as [C1|C1]; cbn [negb].
    + u1. unfold R, rest_of. rewrite (proj2 (Z.eqb_eq (ip d) 0) C1). split; [reflexivity|]. unfold N. lia.
    + u1. eapply ups_bind; [apply u_get_word|lia|]. intros g _.
      assert (usub w (ip d) = w - ip d) as -> by (unfold valid_it in Vd; rewrite usub_small by lia; lia).
      u1. eapply ups_bind; [apply u_get_word|lia|]. intros g2 _.
      do 3 u1. apply ub_lift. intros f Hf. do 2 u1.
      destruct (after_part w first last d N f Vw V1 Vd eq_refl ltac:(lia) C1 Hf) as [F1 [F2 F3]]. auto.
  - destruct (R mod w =? 0); lia.
  - intros [[[r f] f2] it] [-> [F ->]]. set (it := ib d + (if ip d =? 0 then 0 else 1)).
    destruct (Z.ltb_spec 0 R) as [C1|C1].
    2:{ replace R with 0 by lia. rewrite Z.div_0_l, Z.mod_0_l by lia. cbn [Z.eqb]. us. }
    eapply ups_bind with (P := any); [|apply Z.le_refl|intros _ _; us].
    eapply ups_bind with (b := it + R / w) (P := fun '(i, _, _, r) => i = it + R / w /\ r = R mod w).
    + destruct ((ip f =? 0) && (ip f2 =? 0) && (w <? R)) eqn:C2.
      * destruct (whole_words w f last R Vw V2 ltac:(lia) F) as [E1 E2]. cbv zeta.
        rewrite E2, E1.
        eapply ups_bind; [apply u_words_transform2; reflexivity|lia|]. intros _ _. us.
      * apply u_transform2_loop; try assumption; lia.
    + destruct (R mod w =? 0); lia.
    + intros [[[it' f'] f2'] r'] [-> ->].
      destruct (Z.ltb_spec 0 (R mod w)) as [C2|C2].
      * replace (R mod w =? 0) with false by lia. u1. eapply ups_bind; [apply u_get_word|lia|]. intros g _.
        eapply ups_bind; [apply u_get_word|lia|]. intros g2 _. us.
      * replace (R mod w =? 0) with true by lia. us.
Qed.

Lemma d_copy_backward_loop : forall p w, valid_w w -> forall n R it last a b, 0 <= R < 2 ^ 63 ->
  Z.of_nat n = R / w -> a = it - 1 -> b = a - R / w ->
  downs (copy_backward_loop p w n it last R) a b (fun '(i, _, r) => i = it - R / w /\ r = R mod w).
Proof.
  intros p w Vw. pose proof (valid_pos w Vw) as W.
  induction n as [|n IH]; intros R it last a b HR Hn -> ->; cbn [copy_backward_loop].
  - destruct (Z.leb_spec w R) as [C|C].
    + pose proof (Z.div_le_lower_bound R w 1). lia.
    + d1. rewrite Z.mod_small by lia. split; [lia|reflexivity].
  - destruct (Z.leb_spec w R) as [C|C].
    + d1. eapply downs_bind; [apply d_get_word|lia|]. intros y _. do 2 d1. rewrite usub_small by lia.
      assert (D : (R - w) / w = R / w - 1).
      { replace (R - w) with (R + (-1) * w) by lia. rewrite Z.div_add by lia. lia. }
      assert (E : (R - w) mod w = R mod w).
      { replace (R - w) with (R + (-1) * w) by lia. rewrite Z.mod_add by lia. reflexivity. }
      rewrite <- E. replace (it - R / w) with (it - 1 - (R - w) / w) by lia. apply IH; lia.
    + rewrite Z.div_small in Hn by lia. lia.
Qed.

Lemma d_copy_backward : forall p w first last d, valid_w w -> valid_it w first ->
  valid_it w last -> valid_it w d -> 0 < addr w last - addr w first <= max_bits ->
  downs (copy_backward p w first last d) ((addr w d - 1) / w)
    ((addr w d - (addr w last - addr w first)) / w - 1) any.
Proof.
  intros p w first last d Vw V1 V2 Vd H. pose proof (valid_pos w Vw) as W.
  pose proof (end_word w d ltac:(lia) Vd) as EW.
  pose proof (words_split_back w d (addr w last - addr w first) ltac:(lia) Vd ltac:(lia)) as S.
  unfold words_of in S.
  destruct (Z.ltb_spec (addr w d - (addr w last - addr w first)) (addr w d)) as [C|C]; [clear C|lia].
  unfold copy_backward, max_bits in *. cbv zeta.
  rewrite assert_viable_eq, distance_eq by (assumption || lia). d1.
  rewrite (ieq_addr w) by (assumption || lia).
  destruct (Z.eqb_spec (addr w first) (addr w last)) as [C0|C0]; [lia|]. d1.
  set (N := addr w last - addr w first) in *.
  pose proof (rest_back_bound w d N Vd ltac:(lia)) as RB.
  set (R := rest_back d N) in *.
  assert (D0 : 0 <= R / w) by (apply Z.div_pos; lia).
  assert (DM : 0 <= R mod w < w) by (apply Z.mod_pos_bound; lia).
  set (Q := R / w + (if R mod w =? 0 then 0 else 1)).
  assert (Q0 : 0 <= Q) by (unfold Q; destruct (R mod w =? 0); lia).
  replace ((addr w d - N) / w - 1) with (ib d - 1 - Q) by (unfold Q; lia).
  replace ((addr w d - 1) / w) with (ib d - 1 + (if ip d =? 0 then 0 else 1)) by lia.
  clear S EW.
  eapply downs_bind with (b := ib d - 1)
    (P := fun '(r, l) => r = R /\ addr w l = addr w first + R /\ valid_it w l).
  - unfold R, rest_back. destruct (Z.eqb_spec (ip d) 0) as [C1|C1]; cbn [negb].
    + d1. split; [reflexivity|]. split; [unfold N; lia|assumption].
    + do 2 d1. eapply downs_bind; [apply d_get_word|lia|]. intros g _. unfold valid_it in Vd.
      do 3 d1. apply db_lift. intros l Hl. d1. unfold advance in *. rewrite swrap64_small in Hl by lia.
      edestruct (iadd_exact w last (- Z.min N (ip d)) Vw V2) as [f' [F1 [F2 F3]]].
      { unfold valid_it in V2. lia. }
      rewrite F1 in Hl. injection Hl as <-. rewrite usub_small by lia. rewrite F3.
      split; [reflexivity|]. split; [unfold N; lia|assumption].
  - lia.
  - intros [r l] [-> [F Vl]].
    destruct (Z.ltb_spec 0 R) as [C1|C1].
    2:{ assert (Q = 0). { unfold Q. replace R with 0 by lia. rewrite Z.div_0_l, Z.mod_0_l by lia. reflexivity. }
        ds. }
    eapply downs_bind with (P := any); [|apply Z.le_refl|intros _ _; ds].
    assert (TL : forall it l r a b, a = it -> b = (if 0 <? r then it - 1 else it) ->
        downs (if 0 <? r then
           tbind (load it) (fun x => tbind (lift (isub w l r)) (fun src =>
           tbind (get_word p w src r) (fun g => tbind (lift (cshl p w g (usub w r))) (fun s =>
           tbind (lift (bitblend p w x (wrap w s) (usub w r) r)) (fun v => store it v)))))
         else ret tt) a b any).
    { intros it l' r a b -> ->. destruct (0 <? r); [|ds].
      do 2 d1. eapply downs_bind; [apply d_get_word|lia|]. intros g _. ds. }
    destruct ((ip l =? 0) && (w <? R)) eqn:C2.
    + set (n := ib l - ib first - 1).
      assert (E : R = w * n + (w - ip first)) by (unfold n, addr, valid_it in *; lia).
      assert (Hn : 0 <= n) by (unfold valid_it in V1; nia).
      assert (EQ : Q = n + 1).
      { unfold Q, valid_it in *. destruct (Z.eqb_spec (ip first) 0) as [C3|C3].
        - rewrite <- (Z.div_unique R w (n + 1) 0), <- (Z.mod_unique R w (n + 1) 0) by lia.
          cbn [Z.eqb]. lia.
        - rewrite <- (Z.div_unique R w n (w - ip first)),
            <- (Z.mod_unique R w n (w - ip first)) by lia.
          destruct (Z.eqb_spec (w - ip first) 0); lia. }
      cbv zeta. apply db_assoc.
      eapply downs_bind with (b := ib d - 1 - n); [apply d_words_copy_backward; lia|lia|]. intros _ _.
      apply db_assoc. apply db_lift. intros l' _. apply db_ret. apply TL; [lia|].
      unfold valid_it in V1. rewrite usub_small by nia.
      destruct (Z.ltb_spec 0 (R - w * n)); lia.
    + apply db_assoc.
      eapply downs_bind with (b := ib d - 1 - R / w); [apply d_copy_backward_loop; try assumption; lia| |].
      * unfold Q. destruct (R mod w =? 0); lia.
      * intros [[it' l'] r'] [-> ->]. apply db_ret. apply TL; [lia|]. unfold Q.
        destruct (Z.ltb_spec 0 (R mod w)), (Z.eqb_spec (R mod w) 0); lia.
Qed.

Lemma fill_writes : forall p w first last b m x, valid_w w -> valid_it w first -> valid_it w last ->
  0 < addr w last - addr w first <= max_bits ->
  AlgModel.fill p w first last b m = Ok x ->
  write_at (fill p w first last b) m = from_to (ib first) ((addr w last - 1) / w + 1).
Proof.
  intros p w first last b m x Vw V1 V2 H E.
  eapply ups_written; [apply u_fill; assumption|].
  rewrite (proj1 (ProofCost6.same_calls p w m first first last first first b 0 (fun z => z) (fun z _ => z))).
  exact E.
Qed.

Lemma copy_writes : forall p w op op2 first last first2 d m x, valid_w w -> valid_it w first ->
  valid_it w last -> valid_it w d -> 0 < addr w last - addr w first <= max_bits ->
  let l := from_to (ib d) ((addr w d + (addr w last - addr w first) - 1) / w + 1) in
  (AlgModel.copy p w first last d m = Ok x -> write_at (copy p w first last d) m = l) /\
  (AlgModel.move p w first last d m = Ok x -> write_at (move p w first last d) m = l) /\
  (TransformModel.transform1 p w op first last d m = Ok x ->
     write_at (transform1 p w op first last d) m = l) /\
  (TransformModel.transform2 p w op2 first last first2 d m = Ok x ->
     write_at (transform2 p w op2 first last first2 d) m = l).
Proof.
  intros p w op op2 first last first2 d m x Vw V1 V2 Vd H l.
  destruct (ProofCost6.same_calls p w m first first last first2 d true 0 op op2)
    as (_ & _ & _ & S1 & S2 & _ & S3 & S4 & _).
  split; [|split; [|split]]; intros E; eapply ups_written.
  - apply u_copy; assumption.
  - rewrite S1. exact E.
  - apply u_copy; assumption.
  - rewrite S2. exact E.
  - apply u_transform1; assumption.
  - rewrite S3. exact E.
  - apply u_transform2; assumption.
  - rewrite S4. exact E.
Qed.

Lemma copy_backward_writes : forall p w first last d m x, valid_w w -> valid_it w first ->
  valid_it w last -> valid_it w d -> 0 < addr w last - addr w first <= max_bits ->
  AlgModel.copy_backward p w first last d m = Ok x ->
  write_at (copy_backward p w first last d) m =
    rev (from_to ((addr w d - (addr w last - addr w first)) / w) ((addr w d - 1) / w + 1)).
Proof.
  intros p w first last d m x Vw V1 V2 Vd H E.
  destruct (ProofCost6.same_calls p w m first first last first d true 0 (fun z => z) (fun z _ => z))
    as (_ & _ & _ & _ & _ & S & _).
  replace ((addr w d - (addr w last - addr w first)) / w) with
    ((addr w d - (addr w last - addr w first)) / w - 1 + 1) by lia.
  eapply downs_written; [apply d_copy_backward; assumption|]. rewrite S. exact E.
Qed.
