(** Proofs about _bitswap and _byteswap (bit_details.hpp:634-738). *)
From Coq Require Import ZArith Bool List Lia.
From Coq Require Import ZifyBool.
From Verif Require Import Base WordOps Spec ProofBase.
Import ListNotations.
Open Scope Z_scope.
Ltac Zify.zify_post_hook ::= Z.div_mod_to_equations.

(** Finite checks. *)
Definition upto (n : Z) : list Z := map Z.of_nat (seq 0 (Z.to_nat n)).

Lemma upto_in : forall n k, 0 <= k < n -> In k (upto n).
Proof.
  intros n k H. unfold upto. apply in_map_iff. exists (Z.to_nat k).
  split; [lia|]. apply in_seq. lia.
Qed.

Lemma upto_forall : forall n (f : Z -> bool), forallb f (upto n) = true ->
  forall k, 0 <= k < n -> f k = true.
Proof.
  intros n f H k Hk. rewrite forallb_forall in H. apply H, upto_in, Hk.
Qed.

(** One level of the recursion. *)
Lemma swap_step : forall w src r l msk cnt k, 0 <= w -> 0 < cnt ->
  0 <= k < w -> r = Z.shiftr src cnt -> wrap w l = wrap w (Z.shiftl src cnt) ->
  Z.testbit (wrap w (Z.lor (Z.land r msk) (Z.land l (Z.lnot msk)))) k =
  Z.testbit src (if Z.testbit msk k then k + cnt else k - cnt).
Proof.
  intros w src r l msk cnt k Hw Hc Hk -> Hl.
  rewrite wrap_testbit by lia. destruct (Z.ltb_spec k w); [|lia].
  rewrite Z.lor_spec, !Z.land_spec, Z.lnot_spec, Z.shiftr_spec by lia.
  assert (E : Z.testbit l k = Z.testbit src (k - cnt)).
  { rewrite <- (shl_testbit w l src cnt k) by (assumption || lia).
    rewrite wrap_testbit by lia. destruct (Z.ltb_spec k w); [reflexivity|lia]. }
  rewrite E. destruct (Z.testbit msk k); cbn [negb];
    rewrite ?andb_true_r, ?andb_false_r, ?orb_false_r; reflexivity.
Qed.

(** The distances and masks of the levels of the recursion. *)
Fixpoint swap_masks (p : policy) (w : Z) (fuel : nat) (n : Z) : option (list (Z * Z)) :=
  match fuel with
  | O => None
  | S f =>
    let cnt := Z.shiftr n 1 in
    match bitswap_mask p w 7 cnt w (2 ^ w - 1) with
    | Ok msk =>
      if 1 <? cnt then
        match swap_masks p w f cnt with
        | Some l => Some ((cnt, msk) :: l)
        | None => None
        end
      else Some [(cnt, msk)]
    | _ => None
    end
  end.

(** Where bit [k] of the result of the recursion comes from. *)
Fixpoint swap_src (l : list (Z * Z)) (k : Z) : Z :=
  match l with
  | [] => k
  | (cnt, msk) :: l' =>
    let k' := swap_src l' k in if Z.testbit msk k' then k' + cnt else k' - cnt
  end.

(** The recursion is defined down to cnt = 1 and stays inside the word. *)
Fixpoint swap_fine (w : Z) (l : list (Z * Z)) : bool :=
  match l with
  | [] => true
  | (cnt, _) :: l' =>
    (0 <? cnt) && (cnt <? w) &&
    forallb (fun k => let k' := swap_src l' k in (0 <=? k') && (k' <? w)) (upto w) &&
    swap_fine w l'
  end.

Lemma bitswap_rec_ok : forall p w fuel n l src, valid_w w ->
  swap_masks p w fuel n = Some l -> swap_fine w l = true -> 0 <= src < 2 ^ w ->
  rwp (bitswap_rec p w fuel n src) (fun r => 0 <= r < 2 ^ w /\
    forall k, 0 <= k < w -> Z.testbit r k = Z.testbit src (swap_src l k)).
Proof.
  intros p w fuel. induction fuel as [|fuel IH]; intros n l src Hw Hm Hf Hs; [discriminate|].
  pose proof (valid_pos w Hw) as Hwp. pose proof (prom_ge w Hw) as Hpr.
  cbn [bitswap_rec]. cbn [swap_masks] in Hm.
  set (cnt := Z.shiftr n 1) in *. clearbody cnt.
  destruct (bitswap_mask p w 7 cnt w (2 ^ w - 1)) as [msk| | | |]; try discriminate.
  assert (Hl : exists l', l = (cnt, msk) :: l' /\
    (if 1 <? cnt then swap_masks p w fuel cnt = Some l' else l' = [])).
  { destruct (1 <? cnt).
    - destruct (swap_masks p w fuel cnt) as [l'|]; [|discriminate].
      injection Hm as <-. exists l'. split; reflexivity.
    - injection Hm as <-. exists []. split; reflexivity. }
  clear Hm. destruct Hl as (l' & -> & Hm).
  cbn [swap_fine] in Hf. cbn [swap_src].
  apply andb_prop in Hf. destruct Hf as [Hf1 Hf3].
  apply andb_prop in Hf1. destruct Hf1 as [Hf1 Hf2].
  cbn [rbind]. apply rwp_bind, rwp_cshr; [lia|].
  apply rwp_bind, rwp_cshl; try assumption; try lia. intros sl Hl.
  pose proof (fun k Hk => swap_step w src (Z.shiftr src cnt) sl msk cnt k
    ltac:(lia) ltac:(lia) Hk eq_refl Hl) as Hst.
  set (src' := wrap w (Z.lor _ _)) in *.
  assert (Hr : 0 <= src' < 2 ^ w) by (apply wrap_range; lia). clearbody src'.
  destruct (1 <? cnt).
  - eapply rwp_conseq; [apply (IH cnt l'); assumption|].
    intros r (H1 & H2). split; [assumption|]. intros k Hk. rewrite H2 by lia.
    pose proof (upto_forall _ _ Hf2 k Hk) as Hi. cbv zeta beta in Hi.
    rewrite Hst by lia. reflexivity.
  - subst l'. apply rwp_ok. split; [assumption|]. exact Hst.
Qed.

Lemma bitswap8 : forall x k, 0 <= x < 256 -> 0 <= k < 8 ->
  Z.testbit (wrap 8 (Z.shiftr
      (wrap 64 (Z.land (wrap 64 (x * 2149582850)) 36578664720 * 4311810305)) 32)) k
  = Z.testbit x (7 - k).
Proof.
  intros x k Hx Hk.
  assert (H : forallb (fun x => (fun r => forallb (fun k => Bool.eqb
    (Z.testbit r k) (Z.testbit x (7 - k))) [0; 1; 2; 3; 4; 5; 6; 7]) (wrap 8 (Z.shiftr
      (wrap 64 (Z.land (wrap 64 (x * 2149582850)) 36578664720 * 4311810305)) 32)))
    (upto 256) = true) by (vm_compute; reflexivity).
  pose proof (upto_forall _ _ H x Hx) as E. cbv beta in E.
  rewrite forallb_forall in E. specialize (E k).
  apply eqb_prop, E. cbn [In]. lia.
Qed.

(** Every level of the recursion is defined, and together they reverse. *)
Lemma swap_table : forall p w, valid_w w -> w <> 8 ->
  exists l, swap_masks p w 7 w = Some l /\ swap_fine w l = true /\
    forallb (fun k => swap_src l k =? w - 1 - k) (upto w) = true.
Proof.
  intros p w Hw E. destruct Hw as [->|[->|[->|[->| ->]]]]; [lia|..];
    (eexists; split; [destruct p; vm_compute; reflexivity|
      split; vm_compute; reflexivity]).
Qed.

Lemma rwp_bitswap : forall p w x (Q : Z -> Prop), valid_w w -> 0 <= x < 2 ^ w ->
  (forall r, 0 <= r < 2 ^ w ->
    (forall k, 0 <= k < w -> Z.testbit r k = Z.testbit x (w - 1 - k)) -> Q r) ->
  rwp (bitswap p w x) Q.
Proof.
  intros p w x Q Hw Hx HQ. unfold bitswap.
  destruct (Z.eqb_spec w 8) as [->|E].
  { apply rwp_ok, HQ; [apply wrap_range; lia|]. intros k Hk.
    rewrite bitswap8 by (assumption || lia). reflexivity. }
  destruct (swap_table p w Hw E) as (l & H1 & H2 & H3).
  eapply rwp_conseq; [apply (bitswap_rec_ok p w 7 w l); assumption|].
  intros r (R1 & R2). apply HQ; [assumption|]. intros k Hk. rewrite R2 by assumption.
  f_equal. apply Z.eqb_eq. exact (upto_forall _ _ H3 k Hk).
Qed.

Lemma bitswap_ok : forall p w x, valid_w w -> 0 <= x < 2 ^ w ->
  exists r, bitswap p w x = Ok r /\ 0 <= r < 2 ^ w /\
    forall k, 0 <= k < w -> Z.testbit r k = Z.testbit x (w - 1 - k).
Proof.
  intros p w x Hw Hx. apply rwp_exists. apply rwp_bitswap; try assumption.
  intros r H1 H2. split; assumption.
Qed.
