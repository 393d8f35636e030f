(** Proofs about fill, find, equal (fill.hpp, find.hpp, equal.hpp). *)
From Coq Require Import ZArith Bool List Lia.
From Coq Require Import ZifyBool.
From Verif Require Import Base WordOps IterModel AlgModel HwyModel Spec ProofBase
  ProofIter ProofWord.
Import ListNotations.
Open Scope Z_scope.
Ltac Zify.zify_post_hook ::= Z.div_mod_to_equations.

Lemma wp_assert_viable : forall w f l m (Q : unit -> mem -> Prop), valid_w w ->
  valid_it w f -> valid_it w l -> 0 <= addr w l - addr w f <= 2 ^ 62 ->
  Q tt m -> wp (lift (assert_viable w f l)) m Q.
Proof.
  intros. apply wp_lift. rewrite assert_viable_eq by (assumption || lia). assumption.
Qed.

Lemma wp_distance : forall w f l m (Q : Z -> mem -> Prop), valid_w w ->
  valid_it w f -> valid_it w l -> 0 <= addr w l - addr w f <= 2 ^ 62 ->
  Q (addr w l - addr w f) m -> wp (lift (distance w f l)) m Q.
Proof.
  intros. apply wp_lift. rewrite distance_eq by (assumption || lia). assumption.
Qed.

Lemma wp_iadd : forall w it n m (Q : iter -> mem -> Prop), valid_w w ->
  valid_it w it -> - 2 ^ 62 <= n <= 2 ^ 62 ->
  (forall it', valid_it w it' -> addr w it' = addr w it + n -> Q it' m) ->
  wp (lift (iadd w it n)) m Q.
Proof. intros. apply wp_lift, rwp_iadd; try assumption. Qed.

Lemma wp_isub : forall w it n m (Q : iter -> mem -> Prop), valid_w w ->
  valid_it w it -> - 2 ^ 62 <= n <= 2 ^ 62 ->
  (forall it', valid_it w it' -> addr w it' = addr w it - n -> Q it' m) ->
  wp (lift (isub w it n)) m Q.
Proof. intros. apply wp_lift, rwp_isub; try assumption. Qed.

Lemma wp_within : forall w f l m (Q : bool -> mem -> Prop), valid_w w ->
  valid_it w f -> valid_it w l -> 0 <= addr w l - addr w f ->
  Q (addr w l - addr w f <=? w) m -> wp (lift (is_within w f l)) m Q.
Proof.
  intros. apply wp_lift. rewrite is_within_eq by (assumption || lia). assumption.
Qed.

(** Bases are ordered like addresses. *)
Lemma base_le : forall w f l, valid_it w f -> valid_it w l ->
  addr w f <= addr w l -> ib f <= ib l.
Proof. intros w f l Hf Hl H. unfold valid_it, addr in *. nia. Qed.

Lemma fill_word_bits : forall w (bv : bool) k, 0 < w -> 0 <= k < w ->
  Z.testbit (if bv then all_ones w else 0) k = bv.
Proof.
  intros w bv k Hw Hk. destruct bv; [|apply Z.bits_0].
  unfold all_ones. rewrite all_ones_testbit by lia. lia.
Qed.

Lemma fill_word_range : forall w (bv : bool), 0 < w ->
  0 <= (if bv then all_ones w else 0) < 2 ^ w.
Proof.
  intros w bv Hw. destruct bv; [apply wrap_range; lia|].
  pose proof (pow_pos w). lia.
Qed.

(** What fill needs of the stage that writes whole words. *)
Definition fills_words (w : Z) (words : Z -> Z -> Z -> M unit) (first last : iter)
  (bv : bool) : Prop :=
  forall it m (Q : unit -> mem -> Prop), wf_mem w m -> ib first <= it <= ib last ->
  (forall b, it <= b < ib last -> m b <> None) ->
  (forall m', updated w m m' (it * w) (ib last * w) (fun _ => bv) -> Q tt m') ->
  wp (words it (ib last) (if bv then all_ones w else 0)) m Q.

Lemma wp_fill_with : forall words p w first last bv m (Q : unit -> mem -> Prop),
  fills_words w words first last bv ->
  valid_w w -> valid_it w first -> valid_it w last -> wf_mem w m ->
  0 <= addr w last - addr w first <= 2 ^ 62 ->
  mapped w m (addr w first) (addr w last) ->
  (forall m', updated w m m' (addr w first) (addr w last) (fun _ => bv) ->
     Q tt m') ->
  wp (fill_with words p w first last bv) m Q.
Proof.
  intros words p w first last bv m Q Hwords Hw Hf Hl Hwf Hd Hm HQ.
  pose proof (valid_pos w Hw) as Hwp. unfold fill_with. unfold fills_words in Hwords.
  assert (Hfw := fill_word_range w bv ltac:(lia)).
  assert (Hfb := fun k => fill_word_bits w bv k ltac:(lia)).
  set (fw := if bv then all_ones w else 0) in *. clearbody fw.
  apply wp_bind, wp_assert_viable; try assumption; try lia.
  apply wp_bind, wp_distance; try assumption; try lia.
  destruct (Z.eqb_spec (addr w last - addr w first) 0) as [E|E].
  { apply wp_ret, HQ, updated_refl; [assumption|]. intros i Hi. lia. }
  apply wp_bind, wp_within; try assumption; try lia.
  destruct (Z.leb_spec (addr w last - addr w first) w) as [E1|E1].
  { apply wp_bind, wp_distance; try assumption; try lia.
    apply wp_write_word; try assumption; try lia.
    - eapply mapped_sub; [exact Hm|lia|lia].
    - intros m' H. apply HQ.
      replace (addr w first + (addr w last - addr w first)) with (addr w last) in H by lia.
      eapply updated_ext; [exact H|]. intros i Hi. cbv beta. apply Hfb. lia. }
  assert (Hb : ib first < ib last) by (unfold valid_it, addr in *; nia).
  pose proof (mul_mono w (ib first + 1) (ib last) ltac:(lia) ltac:(lia)) as Hmm.
  (* the prefix *)
  apply wp_bind.
  apply (wp_conseq _ _ _ (fun it m1 => ib first <= it <= ib last /\
    addr w first <= it * w <= addr w last /\
    updated w m m1 (addr w first) (it * w) (fun _ => bv))).
  { destruct (Z.eqb_spec (ip first) 0) as [E2|E2]; cbn [negb].
    - apply wp_ret. split; [lia|]. unfold addr, valid_it in *.
      split; [lia|]. apply updated_refl; [assumption|]. intros; lia.
    - unfold valid_it in *. apply wp_bind, wp_write_word; try assumption; try lia.
      + eapply mapped_sub; [exact Hm|lia|unfold addr; lia].
      + intros m1 H1. apply wp_ret. split; [lia|]. unfold addr in *.
        split; [lia|].
        replace (ib first * w + ip first + (w - ip first)) with ((ib first + 1) * w)
          in H1 by lia.
        eapply updated_ext; [exact H1|]. intros i Hi. cbv beta. apply Hfb. lia. }
  intros it m1 (Hit & Hita & H1).
  pose proof (mul_mono w it (ib last) ltac:(lia) ltac:(lia)) as Hmm2.
  apply wp_bind, Hwords; try assumption; try lia.
  { eapply updated_wf, H1. }
  { intros b Hbb. pose proof (mul_mono w (b + 1) (ib last) ltac:(lia) ltac:(lia)).
    pose proof (mul_mono w it b ltac:(lia) ltac:(lia)).
    apply (mapped_word w m1 (addr w first) (addr w last)); try lia.
    - eapply updated_mapped; eassumption.
    - unfold addr, valid_it in *. lia. }
  intros m2 H2.
  assert (H12 : updated w m m2 (addr w first) (ib last * w) (fun _ => bv)).
  { eapply updated_app; [exact H1|exact H2|lia|reflexivity|reflexivity]. }
  destruct (Z.eqb_spec (ip last) 0) as [E3|E3]; cbn [negb].
  - apply wp_ret, HQ. unfold addr in *. rewrite E3, Z.add_0_r. exact H12.
  - unfold valid_it in *. apply wp_write_word; try assumption; try lia.
    + unfold valid_it, mk_aligned. cbn. lia.
    + eapply updated_wf, H12.
    + eapply mapped_sub; [eapply updated_mapped; eassumption| |];
        unfold addr, mk_aligned; cbn [ib ip]; unfold addr in *; lia.
    + intros m3 H3. apply HQ. unfold addr, mk_aligned in *. cbn [ib ip] in *.
      rewrite Z.add_0_r in H3.
      eapply updated_app; [exact H12|exact H3|lia|reflexivity|].
      intros i Hi. cbv beta. apply Hfb. lia.
Qed.

Lemma fills_words_scalar : forall w first last bv, 0 < w ->
  fills_words w (fun it e v => words_fill (Z.to_nat (e - it)) it v) first last bv.
Proof.
  intros w first last bv Hw it m Q Hwf Hit Hm HQ.
  assert (He : it + Z.of_nat (Z.to_nat (ib last - it)) = ib last) by lia.
  apply (wp_words_fill w); try assumption.
  - apply fill_word_range. assumption.
  - rewrite He. assumption.
  - rewrite He. intros m' H. apply HQ. eapply updated_ext; [exact H|].
    intros i Hi. cbv beta. apply fill_word_bits; [lia|]. apply Z.mod_pos_bound. lia.
Qed.

Lemma wp_fill : forall p w first last bv m (Q : unit -> mem -> Prop),
  valid_w w -> valid_it w first -> valid_it w last -> wf_mem w m ->
  0 <= addr w last - addr w first <= 2 ^ 62 ->
  mapped w m (addr w first) (addr w last) ->
  (forall m', updated w m m' (addr w first) (addr w last) (fun _ => bv) ->
     Q tt m') ->
  wp (fill p w first last bv) m Q.
Proof.
  intros p w first last bv m Q Hw. pose proof (valid_pos w Hw). intros.
  change (fill p w first last bv) with
    (fill_with (fun it e v => words_fill (Z.to_nat (e - it)) it v) p w first last bv).
  apply wp_fill_with; try assumption. apply fills_words_scalar. lia.
Qed.
