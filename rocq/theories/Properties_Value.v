(** Property C61: bit_value is a boolean value type. *)
From Coq Require Import ZArith Bool List Lia.
From Verif Require Import Base WordOps IterModel RefModel Spec ValueModel SpecValue Demo ProofValue.
Import ListNotations.
Open Scope Z_scope.

(** C61. A program over bit_value variables and the bits first[i], i < n, of an array
    prints what the same program prints over variables and an array of type bool,
    leaves the same values in the variables and the array, and changes no other bit. *)
Theorem C61_value_programs : forall p w first n c e m,
  valid_w w -> valid_it w first -> 0 <= n <= max_bits ->
  wf_mem w m -> mapped w m (addr w first) (addr w first + n) ->
  bpre_all w n c e (fun i => bit w m (addr w first + i)) ->
  exists out e' a' m',
    bprun c e (fun i => bit w m (addr w first + i)) = (out, e', a') /\
    vprun p w first c e m = Ok (out, e', m') /\
    updated w m m' (addr w first) (addr w first + n) (fun i => a' (i - addr w first)).
Proof. exact value_program. Qed.
Print Assumptions C61_value_programs.

(** Two words of 8 bits, the array begins at bit 3 of the first. The program flips
    bit 9 of the array only if the comparison printed true. *)
Example C61_value_programs_example :
  let m := mem_of [227; 90] in
  let first := It 0 3 in
  let c :=
    PDo (SWord 1 2) (fun _ => PDo (SWordPos 2 2 1) (fun _ =>
    PDo (SSwap 1 2) (fun _ => PDo (SShow 1) (fun _ =>
    PDo (SSwapRef 1 0) (fun _ => PDo (SCmpRef CGt 1 0) (fun o1 =>
    PDo (SCmp CLe 1 2) (fun o2 =>
    if hd false o2 then PDo (SConst 3 K1) (fun _ => PDo (SRefXor 9 3) (fun _ => PStop))
    else PStop))))))) in
  valid_w 8 /\ valid_it 8 first /\ 0 <= 13 <= max_bits /\ wf_mem 8 m /\ mapped 8 m 3 16 /\
  bpre_all 8 13 c (fun _ => false) (fun i => bit 8 m (3 + i)) /\
  fst (fst (bprun c (fun _ => false) (fun i => bit 8 m (3 + i)))) = [true; false; true] /\
  match vprun Strict17 8 first c (fun _ => false) m with
  | Ok (out, e, m') => out = [true; false; true] /\ e 1 = false /\ e 3 = true /\
      m' 0 = Some 235 /\ m' 1 = Some 74
  | _ => False
  end.
Proof.
  cbv zeta. split; [unfold valid_w; lia|]. split; [unfold valid_it; cbn; lia|].
  split; [unfold max_bits; lia|]. split; [demo|]. split; [demo|].
  split; [vm_compute; intuition discriminate|]. vm_compute. auto 10.
Qed.

(** The position given with a word must lie within the word: otherwise the
    assertion fails. *)
Theorem C61_position_assert : forall p w first x val n e m, valid_w w -> w <= n ->
  vexec p w first (SWordPos x val n) e m = Assert.
Proof. exact position_assert. Qed.
Print Assumptions C61_position_assert.

Example C61_position_assert_example :
  valid_w 16 /\ 16 <= 16 /\
  vexec Strict17 16 (It 0 0) (SWordPos 1 65535 16) (fun _ => false) (mem_of [1]) = Assert.
Proof. demo. Qed.
