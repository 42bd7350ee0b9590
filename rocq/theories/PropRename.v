(** Property C60: numbering, and logic on which badness does not depend, do not change answers. *)
From Verif Require Import Base Formulas FormulaLogic Aig AigParse Fsts Bmc Solvers Ic3 Pdr Brute Spec SpecText
  SpecAig SpecAiger SpecFsts SpecAlg SpecRename Tac BruteFacts AigFacts AigThms FstsThms BmcThms LogicFacts Ic3Thms
  ReplaceFacts ConeThms SoundThms ProverThms RenameThms.
Open Scope N_scope.

(* ------------------------------------------------------------------------ C60 *)

(** Any two provers that return give the same verdict for two such circuits (or for one), whatever
    the build, the hash orders behind the systems, the solvers and the random choices. *)
Theorem C60_same_verdict :
  forall f c1 flag1 c2 flag2 b1 b2 s1 s2 r1 r2, renames f c1 flag1 c2 flag2 ->
  system_of b1 c1 flag1 s1 -> numbering_fits c1 flag1 -> system_of b2 c2 flag2 s2 -> numbering_fits c2 flag2 ->
  gives_verdict b1 c1 flag1 s1 r1 -> gives_verdict b2 c2 flag2 s2 r2 ->
  (verdict_proof r1 <-> verdict_proof r2).
Proof. exact same_verdict. Qed.
Print Assumptions C60_same_verdict.

(** Two BMC searches find counterexamples of the same depth, or one stopped before that depth. *)
Theorem C60_same_depth :
  forall f c1 flag1 c2 flag2 b1 b2 s1 s2 limit1 limit2 r1 r2, renames f c1 flag1 c2 flag2 ->
  system_of b1 c1 flag1 s1 -> well_numbered b1 c1 flag1 -> system_of b2 c2 flag2 s2 -> well_numbered b2 c2 flag2 ->
  bmc_gives b1 c1 s1 limit1 r1 -> bmc_gives b2 c2 s2 limit2 r2 -> compatible r1 r2.
Proof. exact same_bmc. Qed.
Print Assumptions C60_same_depth.

(** If BMC finds a counterexample in one of them, no prover proves the other safe or claims a
    larger depth. *)
Theorem C60_bmc_and_provers :
  forall f c1 flag1 c2 flag2 b1 b2 s1 s2 r limit asg d,
  renames f c1 flag1 c2 flag2 \/ renames f c2 flag2 c1 flag1 ->
  system_of b1 c1 flag1 s1 -> numbering_fits c1 flag1 -> system_of b2 c2 flag2 s2 -> well_numbered b2 c2 flag2 ->
  gives_verdict b1 c1 flag1 s1 r -> bmc_gives b2 c2 s2 limit (CTX asg d) ->
  exists e, r = ProofCTX e /\ e <= d.
Proof. exact bmc_and_provers. Qed.
Print Assumptions C60_bmc_and_provers.

(** [swapped_shift] lacks a latch of [shift_circuit] and has the other two in the other order, so
    [shift_name] maps an unused variable and the gate to the same variable; [wide_differ] has an
    input and a latch more than [differ_circuit]. *)
Example C60_case :
  renames shift_name shift_circuit false swapped_shift true /\ shift_name 4 = shift_name 5 /\
  renames differ_name differ_circuit false wide_differ false /\
  exists s1 s2 s3 s4,
    system_of Debug shift_circuit false s1 /\ numbering_fits shift_circuit false /\
    system_of Release swapped_shift true s2 /\ numbering_fits swapped_shift true /\
    system_of Debug differ_circuit false s3 /\ numbering_fits differ_circuit false /\
    system_of Release wide_differ false s4 /\ numbering_fits wide_differ false /\
    (exists d1 d2, gives_verdict Debug shift_circuit false s1 (ProofCTX d1) /\
       gives_verdict Release swapped_shift true s2 (ProofCTX d2)) /\
    (exists a1 a2, bmc_gives Debug shift_circuit s1 5 (CTX a1 2) /\ bmc_gives Release swapped_shift s2 9 (CTX a2 2)) /\
    bmc_gives Release swapped_shift s2 1 (NoCTX 1) /\
    (exists i1 i2, gives_verdict Debug differ_circuit false s3 (Proof i1) /\
       gives_verdict Release wide_differ false s4 (Proof i2)).
Proof.
  split; [exact shift_renamed|]. split; [reflexivity|]. split; [exact differ_renamed|].
  destruct (shift_system Debug) as (s1 & E1 & H1 & N1). destruct (differ_system Debug) as (s3 & E3 & H3 & N3).
  destruct (fsts_of Release swapped_shift true) as [s2| |] eqn:E2; [|vm_compute in E2; discriminate..].
  destruct (case_system Release swapped_shift true s2) as (H2 & N2);
    [vm_compute; reflexivity|vm_compute; repeat split|vm_compute; reflexivity|exact E2|].
  destruct (fsts_of Release wide_differ false) as [s4| |] eqn:E4; [|vm_compute in E4; discriminate..].
  destruct (case_system Release wide_differ false s4) as (H4 & N4);
    [vm_compute; reflexivity|vm_compute; repeat split|vm_compute; reflexivity|exact E4|].
  exists s1, s2, s3, s4. do 8 (split; [assumption|]).
  vm_compute in E1, E2, E3, E4. injection E1 as <-. injection E2 as <-. injection E3 as <-. injection E4 as <-.
  assert (HT : solver_sound_below 2147483647 brute) by exact (correct_sound _ _ (correct_below _ _ brute_correct)).
  assert (HB : solver_sound_below 2147483648 brute) by exact (correct_sound _ _ (correct_below _ _ brute_correct)).
  split; [|split; [|split]].
  - do 2 eexists. split; left; exists no_random, brute, 100%nat; (split; [exact no_random_ok|]); (split; [exact HT|]);
      vm_compute; reflexivity.
  - do 2 eexists. split; exists 2147483648, brute, (mkClock (fun _ => false) (fun _ => false));
      (split; [exact HB|]); (split; [reflexivity|]); (split; [first [left; split; reflexivity|right; split; vm_compute; congruence]|]);
      vm_compute; reflexivity.
  - exists 2147483648, brute, (mkClock (fun _ => false) (fun _ => false)).
    split; [exact HB|]. split; [reflexivity|]. split; [right; split; vm_compute; congruence|]. vm_compute; reflexivity.
  - do 2 eexists. split; [left; exists no_random, brute, 100%nat|right; left; exists no_random, brute_stateful, 100%nat];
      (split; [exact no_random_ok|]); (split; [first [exact HT|exact brute_stateful_sound]|]); vm_compute; reflexivity.
Qed.
