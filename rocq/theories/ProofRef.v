(** Proofs about bit_reference, bit_value and bit_pointer. *)
From Coq Require Import ZArith Bool List Lia.
From Coq Require Import ZifyBool.
From Verif Require Import Base WordOps IterModel RefModel Spec ProofBase ProofIter.
Import ListNotations.
Open Scope Z_scope.
Ltac Zify.zify_post_hook ::= Z.div_mod_to_equations.

Lemma mk_ref_eq : forall p w a q, valid_w w -> 0 <= q < w ->
  mk_ref p w a q = Ok (Ref a (2 ^ q)).
Proof.
  intros p w a q Hw Hq. pose proof (valid_pos w Hw). unfold mk_ref.
  destruct (Z.leb_spec 0 q); [|lia]. destruct (Z.ltb_spec q w); [|lia].
  cbn [andb]. rewrite cshl_one by (assumption || lia). cbn [rbind].
  rewrite wrap_small; [reflexivity|]. pose proof (pow_pos q).
  split; [lia|]. apply Z.pow_lt_mono_r; lia.
Qed.

Lemma iindex_deref : forall p w it n,
  valid_w w -> valid_it w it -> - 2 ^ 63 <= ip it + n < 2 ^ 63 ->
  exists r, iadd w it n = Ok r /\
    iindex p w it n = Ok (Ref (ib r) (2 ^ ip r)) /\
    ideref p w r = Ok (Ref (ib r) (2 ^ ip r)).
Proof.
  intros p w it n Hw Hv Hn. pose proof (valid_pos w Hw).
  eexists. split; [apply iadd_eq; assumption|]. cbn [ib ip].
  assert (Hm : 0 <= (ip it + n) mod w < w) by (apply Z.mod_pos_bound; lia).
  split.
  - unfold iindex. rewrite swrap64_small by lia. rewrite floor_diff_div by assumption.
    replace (ip it + n - (ip it + n) / w * w) with ((ip it + n) mod w)
      by (pose proof (Z.div_mod (ip it + n) w); lia).
    rewrite wrap_small by lia. apply mk_ref_eq; assumption.
  - unfold ideref. cbn [ib ip]. apply mk_ref_eq; assumption.
Qed.
