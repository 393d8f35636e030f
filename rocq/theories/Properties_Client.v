(** Property C51: programs over several bit_vectors. *)
From Coq Require Import ZArith Bool List Lia.
From Verif Require Import Base IterModel PopcntModel Spec SpecRotate VecModel SpecVec ClientModel
  SpecClient ProofClient3 ProofClient4.
Import ListNotations.
Open Scope Z_scope.

(** C51: a program that constructs bit_vectors and calls container members and
    algorithms on them, each with its precondition, sees the values and ends with
    the contents that the same program has on lists; every vector not named by a
    statement is left alone. *)
Theorem C51_programs : forall t p w, valid_w w -> forall cs vs, Forall (vec_ok w) vs ->
  cpre_all t p w (map (vbits w) vs) cs ->
  exists os vs', crun t p w vs cs = Ok (os, vs') /\ Forall (vec_ok w) vs' /\
    cspec_all w (map (vbits w) vs) cs os (map (vbits w) vs').
Proof. exact crun_ok. Qed.
Print Assumptions C51_programs.

(** The program of README.md and the text it prints, under the shift rules of
    C++17. *)
Example C51_readme_example :
  let cs := [CString [48; 49; 49; 49; 49; 49; 48; 49; 48; 48; 49; 48]; CShow 0;
             CAlg (AReverse 0 0 12); CShow 0;
             CAlg (ARotate 0 0 3 12); CShow 0;
             CCall 0 (OpPush false); CCall 0 (OpInsertN 13 10 true); CShow 0] in
  valid_w 8 /\ Forall (vec_ok 8) [] /\
  cpre_all (X86 (Cpu true true true)) Strict17 8 [] cs /\
  match crun (X86 (Cpu true true true)) Strict17 8 [] cs with
  | Ok (os, vs) =>
    os = [COut ONone; CText [48; 49; 49; 49; 49; 49; 48; 49; 32; 48; 48; 49; 48];
          COut ONone; CText [48; 49; 48; 48; 49; 48; 49; 49; 32; 49; 49; 49; 48];
          COut (OIdx 9); CText [48; 49; 48; 49; 49; 49; 49; 49; 32; 48; 48; 49; 48];
          COut ONone; COut (OIdx 13);
          CText [48; 49; 48; 49; 49; 49; 49; 49; 32; 48; 48; 49; 48; 48; 49; 49; 49; 32;
                 49; 49; 49; 49; 49; 49; 49]]
  | _ => False
  end.
Proof.
  cbv zeta. split; [unfold valid_w; lia|]. split; [constructor|].
  split; [|vm_compute; reflexivity].
  cbn [cpre_all]. split; [side|].
  do 8 (after_spec; split; [side|]).
  after_spec. exact I.
Qed.

(** Moves, exchanges and a moved-from vector that is used again, whatever words it
    was left with; also a vector moved to and exchanged with itself. *)
Example C51_move_example :
  let cs := [CString [49; 48; 49; 49; 48; 48; 49; 49; 49]; CString [48; 49; 49];
             CCopy 0; CMove 1 0 [255; 7]; CShow 1; CCall 0 OpSize;
             CCall 0 (OpPush true); CCall 0 (OpPush false); CShow 0;
             CSwap 0 1 [] [170]; CShow 0; CShow 1; CSwap 2 2 [3] []; CShow 2;
             CMove 2 2 [85]; CCall 2 OpSize; CCall 2 (OpInsertN 0 3 true); CShow 2] in
  valid_w 8 /\ Forall (vec_ok 8) [] /\
  cpre_all (X86 (Cpu true true true)) Strict17 8 [] cs /\
  match crun (X86 (Cpu true true true)) Strict17 8 [] cs with
  | Ok (os, vs) =>
    os = [COut ONone; COut ONone; COut ONone; COut ONone;
          CText [49; 48; 49; 49; 48; 48; 49; 49; 32; 49]; COut (ONum 0);
          COut ONone; COut ONone; CText [49; 48]; COut ONone;
          CText [49; 48; 49; 49; 48; 48; 49; 49; 32; 49]; CText [49; 48]; COut ONone;
          CText [49; 48; 49; 49; 48; 48; 49; 49; 32; 49]; COut ONone; COut (ONum 0);
          COut (OIdx 0); CText [49; 49; 49]]
  | _ => False
  end.
Proof.
  cbv zeta. split; [unfold valid_w; lia|]. split; [constructor|].
  split; [|vm_compute; reflexivity].
  cbn [cpre_all]. split; [side|].
  do 17 (after_spec; split; [side; try (repeat constructor; lia)|]).
  after_spec. exact I.
Qed.

(** Three vectors, the intersection of two of them as in README.md, exchanged and
    copied ranges, comparisons; then a shift, whose vacated elements the later
    statements do not look at. *)
Example C51_programs_example :
  let cs := [CString [49; 49; 48; 49; 48; 48; 49; 49; 49; 48];
             CString [48; 49; 49; 49; 48; 48; 48; 49; 48; 49]; CFill 10 false;
             CAlg (ATransform2 Z.land 0 0 10 1 0 2 0); CShow 2;
             CAlg (ACount 2 0 10 true); CAlg (AFind 2 2 10 true);
             CAlg (ASwapRanges 0 2 7 1 3); CAlg (ACopy 1 0 4 2 5); CAlg (AEqual 2 5 9 1 0);
             CAlg (AFill 0 3 9 true); CInsert 0 1 2 2 8; CAssign 1 0; CRange 1 3 9;
             CAlg (AShiftRight 3 1 6 2); CCall 3 (OpGet 4)] in
  valid_w 8 /\ Forall (vec_ok 8) [] /\
  cpre_all (X86 (Cpu true true true)) Strict17 8 [] cs /\
  match crun (X86 (Cpu true true true)) Strict17 8 [] cs with
  | Ok (os, vs) =>
    os = [COut ONone; COut ONone; COut ONone; COut (OIdx 10);
          CText [48; 49; 48; 49; 48; 48; 48; 49; 32; 48; 48];
          COut (ONum 3); COut (OIdx 3); COut (OIdx 8); COut (OIdx 9); COut (OBit true);
          COut ONone; COut (OIdx 1); COut ONone; COut ONone; COut (OIdx 3);
          COut (OBit true)]
  | _ => False
  end.
Proof.
  cbv zeta. split; [unfold valid_w; lia|]. split; [constructor|].
  split; [|vm_compute; reflexivity].
  cbn [cpre_all]. split; [side|].
  do 3 (after_spec; split; [side|]).
  { exists andb. apply land_bitwise. lia. }
  intros o ls S; cbn [cspec alg_spec] in S. destruct S as (r & -> & -> & S).
  specialize (S andb (land_bitwise 8 ltac:(lia))). subst ls. split; [side|].
  after_spec. split; [side; left; eauto|].
  do 3 (after_spec; split; [side|]).
  after_spec. split; [side|].
  intros o ls S; cbn [cspec alg_spec] in S. destruct S as (r & -> & _ & ->). split; [side|].
  do 3 (after_spec; split; [side|]).
  intros o ls S. cbn [cspec] in S. destruct S as [_ ->].
  match goal with |- context [cpre _ _ _ ?l _] =>
    let v := eval vm_compute in l in change l with v end.
  split; [side|].
  intros o2 ls S; cbn [cspec alg_spec] in S.
  destruct S as (r' & -> & [S|[S|(_ & _ & u & Eu & ->)]]);
    [vm_compute in S; intuition congruence|vm_compute in S; intuition congruence|].
  do 3 (destruct u as [|? u]; [first [discriminate Eu|idtac]|]);
    [|exfalso; unfold zlen in Eu; cbn [length] in Eu; lia].
  split; [side|]. intros. exact I.
Qed.

(** C51, the shift rules of the language: among the statements whose precondition
    holds when every shift has a value, those that the rules [p] of the language
    allow are the ones that are defined. The others execute a shift that the
    language leaves undefined. *)
Theorem C51_statement_rules : forall t p h w, valid_w w -> forall vs c, Forall (vec_ok w) vs ->
  cpre t (Hw h) w (map (vbits w) vs) c ->
  (cpre t p w (map (vbits w) vs) c <-> forall k, cstep t p w vs c <> UB k) /\
  (~ cpre t p w (map (vbits w) vs) c ->
     exists k, cstep t p w vs c = UB k /\ (k = OverShift \/ k = NegShift)).
Proof. exact statement_rules. Qed.
Print Assumptions C51_statement_rules.

(** A program therefore either acts as on lists, or acts as on lists up to a
    statement that the rules do not allow and then executes an undefined shift. *)
Theorem C51_program_rules : forall t p h w, valid_w w -> forall cs vs, Forall (vec_ok w) vs ->
  cpre_all t (Hw h) w (map (vbits w) vs) cs ->
  (exists os vs', crun t p w vs cs = Ok (os, vs') /\ Forall (vec_ok w) vs' /\
     cspec_all w (map (vbits w) vs) cs os (map (vbits w) vs')) \/
  (exists cs1 c cs2 os vs1 k, cs = cs1 ++ c :: cs2 /\ crun t p w vs cs1 = Ok (os, vs1) /\
     cspec_all w (map (vbits w) vs) cs1 os (map (vbits w) vs1) /\
     ~ cpre t p w (map (vbits w) vs1) c /\
     crun t p w vs cs = UB k /\ (k = OverShift \/ k = NegShift)).
Proof. exact program_rules. Qed.
Print Assumptions C51_program_rules.

(** Reversing seven elements up to a word boundary: a program that the rules of
    C++20 allow, and that ends in an undefined shift under those of C++17. *)
Example C51_rules_example :
  let cs := [CString [48; 49; 49; 49; 49; 48; 48; 49]; CAlg (AReverse 0 1 8); CShow 0] in
  valid_w 8 /\ Forall (vec_ok 8) [] /\
  (forall h, cpre_all (X86 (Cpu true true true)) (Hw h) 8 [] cs) /\
  crun (X86 (Cpu true true true)) Strict17 8 [] cs = UB NegShift /\
  match crun (X86 (Cpu true true true)) Strict20 8 [] cs with
  | Ok (os, vs) => os = [COut ONone; COut ONone; CText [48; 49; 48; 48; 49; 49; 49; 49]]
  | _ => False
  end.
Proof.
  cbv zeta. split; [unfold valid_w; lia|]. split; [constructor|].
  split; [|split; vm_compute; reflexivity].
  intros h. cbn [cpre_all]. split; [side|].
  do 2 (after_spec; split; [side|]).
  after_spec. exact I.
Qed.
