(** Concrete memories for the examples beside the theorems. Nothing here models
    /repo: a demo memory stands for a std::vector of words at address 0. *)
From Coq Require Import ZArith Bool List Lia.
From Verif Require Import Base IterModel Spec ProofBase.
Import ListNotations.
Open Scope Z_scope.

(** Memory holding the words [l] at addresses 0, 1, ... (a std::vector). *)
Definition mem_of (l : list Z) : mem :=
  fun a => if (0 <=? a) && (a <? Z.of_nat (length l))
           then Some (nth (Z.to_nat a) l 0) else None.

(** First [n] words of a memory. *)
Definition dump (n : nat) (m : mem) : list (option Z) :=
  map (fun k => m (Z.of_nat k)) (seq 0 n).

(** Result and first [n] words after a computation. *)
Definition run {A} (n : nat) (c : M A) (l : list Z) : res (A * list (option Z)) :=
  match c (mem_of l) with
  | Ok (a, m) => Ok (a, dump n m)
  | UB k => UB k
  | Assert => Assert
  | Throw => Throw
  | Fuel => Fuel
  end.

Lemma mem_of_wf : forall w l,
  forallb (fun x => (0 <=? x) && (x <? 2 ^ w)) l = true -> wf_mem w (mem_of l).
Proof.
  intros w l H a x Hx. unfold mem_of in Hx.
  destruct ((0 <=? a) && (a <? Z.of_nat (length l))) eqn:E; [|discriminate].
  apply andb_prop in E. destruct E as [E1 E2].
  apply Z.leb_le in E1. apply Z.ltb_lt in E2.
  injection Hx as <-. rewrite forallb_forall in H.
  specialize (H (nth (Z.to_nat a) l 0)).
  assert (Hin : In (nth (Z.to_nat a) l 0) l) by (apply nth_In; lia).
  specialize (H Hin). apply andb_prop in H. destruct H as [H1 H2].
  apply Z.leb_le in H1. apply Z.ltb_lt in H2. lia.
Qed.

Lemma mem_of_mapped : forall w l lo hi, 0 < w -> 0 <= lo ->
  hi <= w * Z.of_nat (length l) -> mapped w (mem_of l) lo hi.
Proof.
  intros w l lo hi Hw Hlo Hhi i Hi Hn. unfold mem_of in Hn.
  assert (0 <= i / w) by (apply Z.div_pos; lia).
  assert (i / w < Z.of_nat (length l)) by (apply Z.div_lt_upper_bound; lia).
  destruct (Z.leb_spec 0 (i / w)); [|lia].
  destruct (Z.ltb_spec (i / w) (Z.of_nat (length l))); [|lia]. discriminate.
Qed.

(** Proves the hypotheses of the theorems for concrete data. *)
Ltac demo :=
  repeat match goal with
  | |- _ /\ _ => split
  | |- valid_w _ => unfold valid_w; lia
  | |- good_range _ _ _ _ => unfold good_range
  | |- good_dest _ _ _ _ => unfold good_dest
  | |- good_dest_end _ _ _ _ => unfold good_dest_end
  | |- valid_it _ _ => unfold valid_it; cbn; lia
  | |- wf_mem _ (mem_of _) => apply mem_of_wf; reflexivity
  | |- mapped _ (mem_of _) _ _ => apply mem_of_mapped; cbn; lia
  end;
  try (vm_compute; intuition congruence).
