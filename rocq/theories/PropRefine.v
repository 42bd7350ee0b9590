(** Property C69: circuits that follow each other. *)
From Verif Require Import Base Formulas FormulaLogic Aig AigParse Fsts Bmc Solvers Ic3 Pdr Brute Spec SpecText SpecAig SpecAiger SpecFsts SpecAlg
  SpecRename SpecRefine BruteFacts FormulasFacts AigThms FstsThms PartsThms RefineThms.
Open Scope N_scope.

(* ------------------------------------------------------------------------ C69 *)

(** A proof for a circuit that follows [c1]: no prover reports a counterexample for [c1]. *)
Theorem C69_proof_carries_over :
  forall c1 flag1 c2 flag2 R, follows c1 flag1 c2 flag2 R -> forall b2 s2 inv b1 s1 r,
  system_of b2 c2 flag2 s2 -> numbering_fits c2 flag2 -> gives_verdict b2 c2 flag2 s2 (Proof inv) ->
  system_of b1 c1 flag1 s1 -> numbering_fits c1 flag1 -> gives_verdict b1 c1 flag1 s1 r -> verdict_proof r.
Proof. exact followed_proof. Qed.
Print Assumptions C69_proof_carries_over.

(** A counterexample for [c1]: BMC finds one that is not longer for the circuit that follows it, or stops before. *)
Theorem C69_counterexample_carries_over :
  forall c1 flag1 c2 flag2 R, follows c1 flag1 c2 flag2 R -> forall b2 s2 limit2 r b1 s1 limit1 asg d,
  system_of b2 c2 flag2 s2 -> well_numbered b2 c2 flag2 -> bmc_gives b2 c2 s2 limit2 r ->
  system_of b1 c1 flag1 s1 -> well_numbered b1 c1 flag1 -> bmc_gives b1 c1 s1 limit1 (CTX asg d) ->
  match r with CTX _ e => e <= d | NoCTX z => (z < Z.of_N d)%Z end.
Proof. exact followed_counterexample. Qed.
Print Assumptions C69_counterexample_carries_over.

(** Circuits that follow each other get the same verdicts, and counterexamples of the same length. *)
Theorem C69_same_answers :
  forall c1 flag1 c2 flag2 R Q, follows c1 flag1 c2 flag2 R -> follows c2 flag2 c1 flag1 Q ->
  forall b1 s1 b2 s2, system_of b1 c1 flag1 s1 -> system_of b2 c2 flag2 s2 ->
  (numbering_fits c1 flag1 -> numbering_fits c2 flag2 -> forall r1 r2, gives_verdict b1 c1 flag1 s1 r1 ->
     gives_verdict b2 c2 flag2 s2 r2 -> (verdict_proof r1 <-> verdict_proof r2)) /\
  (well_numbered b1 c1 flag1 -> well_numbered b2 c2 flag2 -> forall limit1 limit2 r1 r2,
     bmc_gives b1 c1 s1 limit1 r1 -> bmc_gives b2 c2 s2 limit2 r2 -> compatible r1 r2).
Proof. exact followed_both. Qed.
Print Assumptions C69_same_answers.

(** Two latches with the same next-state function merged into one, in a safe circuit and in one with a counterexample of
    one step. *)
Example C69_case :
  (forall k, follows (two_latches k) false (one_latch k) false same_latches) /\
  (forall k, follows (one_latch k) false (two_latches k) false (fun w u => same_latches u w)) /\
  exists s1 s2 s3 s4,
    system_of Debug (two_latches true) false s1 /\ numbering_fits (two_latches true) false /\
    system_of Release (one_latch true) false s2 /\ numbering_fits (one_latch true) false /\
    system_of Debug (two_latches false) false s3 /\ numbering_fits (two_latches false) false /\
    system_of Release (one_latch false) false s4 /\ numbering_fits (one_latch false) false /\
    (exists inv, gives_verdict Debug (two_latches true) false s1 (Proof inv)) /\
    (exists inv, gives_verdict Release (one_latch true) false s2 (Proof inv)) /\
    (exists d, gives_verdict Debug (two_latches false) false s3 (ProofCTX d)) /\
    (exists asg, bmc_gives Debug (two_latches false) s3 1 (CTX asg 1)) /\
    (exists asg, bmc_gives Release (one_latch false) s4 2 (CTX asg 1)).
Proof.
  split; [exact two_follows_one|]. split; [exact one_follows_two|].
  destruct (two_system Debug true) as (s1 & E1 & H1 & N1). destruct (one_latch_system Release true) as (s2 & E2 & H2 & N2).
  destruct (two_system Debug false) as (s3 & E3 & H3 & N3). destruct (one_latch_system Release false) as (s4 & E4 & H4 & N4).
  assert (P1 : exists inv, ic3_stateless Debug no_random brute 100 s1 = Ok (Proof inv))
    by (vm_compute in E1; injection E1 as <-; eexists; vm_compute; reflexivity).
  assert (P2 : exists inv, ic3_stateless Release no_random brute 100 s2 = Ok (Proof inv))
    by (vm_compute in E2; injection E2 as <-; eexists; vm_compute; reflexivity).
  assert (P3 : exists d, ic3_stateless Debug no_random brute 100 s3 = Ok (ProofCTX d))
    by (vm_compute in E3; injection E3 as <-; eexists; vm_compute; reflexivity).
  assert (B3 : exists asg, bmc_search Debug brute (mkClock (fun _ => false) (fun _ => false)) s3 1 = Ok (CTX asg 1))
    by (vm_compute in E3; injection E3 as <-; eexists; vm_compute; reflexivity).
  assert (B4 : exists asg, bmc_search Release brute (mkClock (fun _ => false) (fun _ => false)) s4 2 = Ok (CTX asg 1))
    by (vm_compute in E4; injection E4 as <-; eexists; vm_compute; reflexivity).
  destruct P1 as (i1 & P1), P2 as (i2 & P2), P3 as (d3 & P3), B3 as (a3 & B3), B4 as (a4 & B4).
  exists s1, s2, s3, s4. do 8 (split; [assumption|]).
  split; [exists i1; exact (ic3_case _ _ _ _ _ _ P1)|]. split; [exists i2; exact (ic3_case _ _ _ _ _ _ P2)|].
  split; [exists d3; exact (ic3_case _ _ _ _ _ _ P3)|].
  split; [exists a3; apply (bmc_case _ _ false); auto; discriminate|].
  exists a4. apply (bmc_case _ _ false); auto; discriminate.
Qed.
