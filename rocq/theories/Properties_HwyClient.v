(** Property C75: programs over several bit_vectors in the BITLIB_HWY build. *)
From Coq Require Import ZArith Bool List Lia.
From Verif Require Import Base WordOps IterModel PopcntModel HwyModel Spec SpecRotate VecModel
  SpecVec ClientModel SpecClient SpecHwy SpecPoint HwyClientModel SpecHwyClient ProofClient3
  ProofHwyVec ProofHwyClient.
Import ListNotations.
Open Scope Z_scope.

(** C75 on any machine: a program of legal calls sees the values and ends with the contents
    that the same program has on lists, wherever the storages lie during each statement. *)
Theorem C75_programs : forall t o n w cs vs, valid_w w -> vector_fits (Unit n 0) w ->
  Forall (vec_ok w) vs -> cpre_all t (Hw o) w (map (vbits w) vs) (map snd cs) ->
  exists os vs', crun_hwy t (Hw o) n w vs cs = Ok (os, vs') /\ Forall (vec_ok w) vs' /\
    cspec_all w (map (vbits w) vs) (map snd cs) os (map (vbits w) vs').
Proof. exact crun_hwy_ok. Qed.
Print Assumptions C75_programs.

(** Vectors of two words; the ranges are long enough for the vector loops of reverse,
    rotate and shift_right. *)
Example C75_programs_example :
  let t := X86 (Cpu true true true) in
  let vs := [BV [1; 2; 3; 5; 8; 13; 21] 53; BV [178; 7] 11] in
  let cs := [(3, CAlg (AReverse 0 5 51)); (3, CAlg (ARotate 0 2 27 50));
             (1, CInsert 0 4 1 2 9); (0, CAlg (AFind 0 7 60 false));
             (2, CAlg (AShiftRight 0 3 57 13))] in
  valid_w 8 /\ vector_fits (Unit 2 0) 8 /\ Forall (vec_ok 8) vs /\
  (forall o, cpre_all t (Hw o) 8 (map (vbits 8) vs) (map snd cs)) /\
  crun_hwy t (Hw (fun _ _ _ => 77)) 2 8 vs cs =
    Ok ([COut ONone; COut (OIdx 25); COut (OIdx 4); COut (OIdx 8); COut (OIdx 16)],
        [BV [193; 46; 216; 5; 6; 2; 133; 9] 60; BV [178; 7] 11]).
Proof.
  cbv zeta. split; [unfold valid_w; lia|]. split; [unfold vector_fits; cbn; lia|].
  split; [repeat constructor; unfold words_ok, max_bits; cbn; repeat constructor; lia|].
  split; [intros o; cbn [map snd cpre_all]; split; [side|]; do 4 (after_spec; split; [side|]);
          intros; exact I|].
  vm_compute. reflexivity.
Qed.

(** C75: the macro does not change what a program does, down to the words of the storages
    and the bits behind the last elements. *)
Theorem C75_programs_same : forall t o n w cs vs, valid_w w -> vector_fits (Unit n 0) w ->
  Forall (vec_ok w) vs -> cpre_all t (Hw o) w (map (vbits w) vs) (map snd cs) ->
  crun_hwy t (Hw o) n w vs cs = crun t (Hw o) w vs (map snd cs).
Proof. exact crun_hwy_same. Qed.
Print Assumptions C75_programs_same.

(** The 19 elements that shift_right leaves unspecified are the same ones. *)
Example C75_programs_same_example :
  let t := Neon true in
  let vs := [BV [4660; 22136; 39612; 57072; 291; 17767] 96; BV [7] 5] in
  let cs := [(4, CAlg (AReverse 0 7 95)); (4, CAlg (AShiftRight 0 0 96 19))] in
  valid_w 16 /\ vector_fits (Unit 2 0) 16 /\ Forall (vec_ok 16) vs /\
  (forall o, cpre_all t (Hw o) 16 (map (vbits 16) vs) (map snd cs)) /\
  crun_hwy t (Hw (fun _ _ _ => 5)) 2 16 vs cs = crun t (Hw (fun _ _ _ => 5)) 16 vs (map snd cs) /\
  crun_hwy t (Hw (fun _ _ _ => 5)) 2 16 vs cs =
    Ok ([COut ONone; COut (OIdx 19)],
        [BV [43188; 17825; 461; 63369; 45598; 54394] 96; BV [7] 5]).
Proof.
  cbv zeta. split; [unfold valid_w; lia|]. split; [unfold vector_fits; cbn; lia|].
  split; [repeat constructor; unfold words_ok, max_bits; cbn; repeat constructor; lia|].
  split; [|split; vm_compute; reflexivity].
  intros o; cbn [map snd cpre_all]; split; [side|]. after_spec. split; [side|]. intros; exact I.
Qed.

(** C75 under the rules of the language. Missing, because they are false of the code, are
    the programs with a statement that looks at the address of a word in front of a storage:
    such a statement is undefined (C75_statement_undefined). *)
Theorem C75_programs_strict_partial : forall t p n w cs vs, valid_w w ->
  vector_fits (Unit n 0) w -> Forall (vec_ok w) vs ->
  cpre_all t p w (map (vbits w) vs) (map snd cs) -> program_inside n w (map (vbits w) vs) cs ->
  exists os vs', crun_hwy t p n w vs cs = Ok (os, vs') /\ Forall (vec_ok w) vs' /\
    cspec_all w (map (vbits w) vs) (map snd cs) os (map (vbits w) vs').
Proof. exact crun_hwy_inside. Qed.
Print Assumptions C75_programs_strict_partial.

(** The storage begins 3 or 2 bytes before a multiple of 64: a vector of 4 words is moved
    into place before it would begin in front of the storage. *)
Example C75_programs_strict_example :
  let t := X86 (Cpu true true true) in
  let vs := [BV [1; 2; 3; 5; 8; 13; 21] 53; BV [178; 7] 11] in
  let cs := [(61, CInsert 0 4 1 2 9); (62, CAlg (AReverse 0 14 51));
             (62, CAlg (ARotate 0 2 45 50)); (61, CAlg (AShiftRight 0 3 57 13))] in
  valid_w 8 /\ vector_fits (Unit 4 0) 8 /\ Forall (vec_ok 8) vs /\
  cpre_all t Strict17 8 (map (vbits 8) vs) (map snd cs) /\
  program_inside 4 8 (map (vbits 8) vs) cs /\
  crun_hwy t Strict17 4 8 vs cs = Ok ([COut (OIdx 4); COut ONone; COut (OIdx 7); COut (OIdx 16)],
    [BV [33; 216; 4; 27; 11; 1; 10; 10] 60; BV [178; 7] 11]).
Proof.
  cbv zeta. split; [unfold valid_w; lia|]. split; [unfold vector_fits; cbn; lia|].
  split; [repeat constructor; unfold words_ok, max_bits; cbn; repeat constructor; lia|].
  split; [cbn [map snd cpre_all]; split; [side|]; do 3 (after_spec; split; [side|]);
          intros; exact I|].
  split; [|vm_compute; reflexivity].
  cbn [program_inside]. split.
  { cbn [statement_inside]. match goal with |- inserts_inside _ _ _ _ ?n =>
      let x := eval vm_compute in n in change n with x end.
    intros _ a (j & J1 & J2 & J3 & J4). cbn [lanes] in J2. change (60 / 8) with 7 in J2.
    destruct (Z.eq_dec j 0) as [->|C]; [lia|]. exfalso. apply (J4 0); [lia|reflexivity]. }
  after_spec. split.
  { cbn [statement_inside alg_inside]. cbv zeta. intros _ a (j & J1 & J2 & J3 & J4).
    cbn [lanes] in J2. change ((51 + (8 - 1)) / 8) with 7 in J2.
    destruct (Z.eq_dec j 0) as [->|C1]; [lia|]. destruct (Z.eq_dec j 1) as [->|C2]; [lia|].
    exfalso. apply (J4 1); [lia|reflexivity]. }
  after_spec. split.
  { cbn [statement_inside alg_inside]. intros a b n E. vm_compute in E. injection E as <- <- <-.
    intros _ _ a (j & J1 & J2 & J3 & J4). cbn [lanes] in J2. change (50 / 8) with 6 in J2.
    destruct (Z.eq_dec j 0) as [->|C]; [lia|]. exfalso. apply (J4 0); [lia|reflexivity]. }
  after_spec. split; [|intros; exact I].
  { cbn [statement_inside alg_inside]. intros _ _ a (j & J1 & J2 & J3 & J4). cbn [lanes] in J2.
    change (57 / 8) with 7 in J2.
    destruct (Z.eq_dec j 0) as [->|C]; [lia|]. exfalso. apply (J4 0); [lia|reflexivity]. }
Qed.

(** That is exact: a statement with its precondition is undefined under the rules of the
    language if and only if it looks at the address of a word in front of the storage. *)
Theorem C75_statement_undefined : forall t p h w vs c, p = Strict17 \/ p = Strict20 ->
  valid_w w -> vector_fits h w -> Forall (vec_ok w) vs -> cpre t p w (map (vbits w) vs) c ->
  cstep_hwy t p h w vs c = UB OutOfBounds <-> ~ statement_inside h w (map (vbits w) vs) c.
Proof. exact statement_hwy_undefined. Qed.
Print Assumptions C75_statement_undefined.

(** The storage of the first vector begins 5 bytes behind a multiple of 64; the insertion
    and reverse look at the word in front of it. *)
Example C75_statement_undefined_example :
  let t := X86 (Cpu true true true) in
  let vs := [BV [1; 2; 3; 5; 8; 13; 21] 53; BV [178; 7] 11] in
  let ls := map (vbits 8) vs in
  valid_w 8 /\ vector_fits (Unit 4 5) 8 /\ Forall (vec_ok 8) vs /\
  cpre t Strict20 8 ls (CInsert 0 4 1 2 9) /\
  ~ statement_inside (Unit 4 5) 8 ls (CInsert 0 4 1 2 9) /\
  cstep_hwy t Strict20 (Unit 4 5) 8 vs (CInsert 0 4 1 2 9) = UB OutOfBounds /\
  cpre t Strict20 8 ls (CAlg (AReverse 0 6 53)) /\
  ~ statement_inside (Unit 4 5) 8 ls (CAlg (AReverse 0 6 53)) /\
  cstep_hwy t Strict20 (Unit 4 5) 8 vs (CAlg (AReverse 0 6 53)) = UB OutOfBounds.
Proof.
  cbv zeta. split; [unfold valid_w; lia|]. split; [unfold vector_fits; cbn; lia|].
  split; [repeat constructor; unfold words_ok, max_bits; cbn; repeat constructor; lia|].
  split; [side|]. split.
  { cbn [statement_inside]. match goal with |- ~ inserts_inside _ _ _ _ ?n =>
      let x := eval vm_compute in n in change n with x end. intros K.
    assert (0 <= -1); [|lia]. apply K; [discriminate|].
    exists 4. cbn [lanes]. repeat split; try lia; try (vm_compute; reflexivity).
    intros i Hi. assert (C : i = 0 \/ i = 1 \/ i = 2 \/ i = 3) by lia.
    destruct C as [-> | [-> | [-> | ->]]]; discriminate. }
  split; [vm_compute; reflexivity|]. split; [side|]. split; [|vm_compute; reflexivity].
  cbn [statement_inside alg_inside]. cbv zeta. intros K.
  assert (0 <= -1); [|lia]. apply K; [vm_compute; reflexivity|].
  exists 4. cbn [lanes]. repeat split; try lia; try (vm_compute; reflexivity).
  intros i Hi. assert (C : i = 0 \/ i = 1 \/ i = 2 \/ i = 3) by lia.
  destruct C as [-> | [-> | [-> | ->]]]; discriminate.
Qed.

(** C75 for every program under the rules of the language: it runs as on lists, or it runs
    as on lists up to a statement that looks at the address of a word in front of a storage,
    and that is undefined. *)
Theorem C75_program_rules : forall t p n w cs vs, p = Strict17 \/ p = Strict20 -> valid_w w ->
  vector_fits (Unit n 0) w -> Forall (vec_ok w) vs ->
  cpre_all t p w (map (vbits w) vs) (map snd cs) ->
  (exists os vs', crun_hwy t p n w vs cs = Ok (os, vs') /\ Forall (vec_ok w) vs' /\
     cspec_all w (map (vbits w) vs) (map snd cs) os (map (vbits w) vs')) \/
  (exists cs1 place c cs2 os vs1, cs = cs1 ++ (place, c) :: cs2 /\
     crun_hwy t p n w vs cs1 = Ok (os, vs1) /\
     cspec_all w (map (vbits w) vs) (map snd cs1) os (map (vbits w) vs1) /\
     ~ statement_inside (Unit n place) w (map (vbits w) vs1) c /\
     crun_hwy t p n w vs cs = UB OutOfBounds).
Proof. exact crun_hwy_rules. Qed.
Print Assumptions C75_program_rules.

(** A program that is defined up to its third statement, the same insertion as the first
    with the storage 5 bytes behind a multiple of 64 instead of 61; without that statement it
    is defined. *)
Example C75_program_rules_example :
  let t := X86 (Cpu true true true) in
  let vs := [BV [1; 2; 3; 5; 8; 13; 21] 53; BV [178; 7] 11] in
  let cs := [(61, CInsert 0 4 1 2 9); (61, CAlg (AFind 0 7 60 false))] in
  let bad := (5, CInsert 0 4 1 2 9) in
  valid_w 8 /\ vector_fits (Unit 4 0) 8 /\ Forall (vec_ok 8) vs /\
  cpre_all t Strict17 8 (map (vbits 8) vs) (map snd (cs ++ [bad])) /\
  crun_hwy t Strict17 4 8 vs cs = Ok ([COut (OIdx 4); COut (OIdx 8)],
    [BV [193; 6; 129; 129; 2; 132; 134; 10] 60; BV [178; 7] 11]) /\
  crun_hwy t Strict17 4 8 vs (cs ++ [bad]) = UB OutOfBounds.
Proof.
  cbv zeta. split; [unfold valid_w; lia|]. split; [unfold vector_fits; cbn; lia|].
  split; [repeat constructor; unfold words_ok, max_bits; cbn; repeat constructor; lia|].
  split; [cbn [app map snd cpre_all]; split; [side|]; do 2 (after_spec; split; [side|]);
          intros; exact I|].
  split; vm_compute; reflexivity.
Qed.
