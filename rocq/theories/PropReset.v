(** Property C68: giving latches an initial value keeps proofs. *)
From Verif Require Import Base Formulas FormulaLogic Aig AigParse Fsts Bmc Solvers Ic3 Pdr Brute Spec SpecText SpecAig SpecAiger SpecFsts SpecAlg
  SpecRename SpecInv SpecReset BruteFacts FormulasFacts AigThms FstsThms PartsThms ResetThms.
Open Scope N_scope.

(* ------------------------------------------------------------------------ C68 *)

(** A proof: no prover reports a counterexample once more latches have initial values. *)
Theorem C68_proof_kept :
  forall c' c, fixes c' c -> forall flag b s inv b' s' r,
  system_of b c flag s -> numbering_fits c flag -> gives_verdict b c flag s (Proof inv) ->
  system_of b' c' flag s' -> gives_verdict b' c' flag s' r -> verdict_proof r.
Proof. exact fixed_proof. Qed.
Print Assumptions C68_proof_kept.

(** Its invariant is accepted for the other circuit. *)
Theorem C68_invariant_kept :
  forall c' c, fixes c' c -> forall flag b s inv b' s',
  system_of b c flag s -> numbering_fits c flag -> gives_verdict b c flag s (Proof inv) ->
  system_of b' c' flag s' -> accepted_for s' inv.
Proof. exact fixed_invariant. Qed.
Print Assumptions C68_invariant_kept.

(** So is every other accepted formula. *)
Theorem C68_accepted_kept :
  forall c' c, fixes c' c -> forall flag b s inv b' s',
  system_of b c flag s -> numbering_fits c flag -> candidate_fits c inv ->
  accepted_once s inv -> system_of b' c' flag s' -> accepted_for s' inv.
Proof. exact fixed_accepted. Qed.
Print Assumptions C68_accepted_kept.

(** A counterexample of the circuit with more initial values: BMC on the other one finds one that is not longer, or stops
    before. *)
Theorem C68_counterexample_kept :
  forall c' c, fixes c' c -> forall flag b s limit r b' s' limit' asg d,
  system_of b c flag s -> well_numbered b c flag -> bmc_gives b c s limit r ->
  system_of b' c' flag s' -> well_numbered b' c' flag -> bmc_gives b' c' s' limit' (CTX asg d) ->
  match r with CTX _ e => e <= d | NoCTX z => (z < Z.of_N d)%Z end.
Proof. exact fixed_counterexample. Qed.
Print Assumptions C68_counterexample_kept.

(** A counterexample BMC found: give latches the initial values its assignment says, and BMC finds one of the same length,
    or stops before. *)
Theorem C68_counterexample_fixed :
  forall c' c asg d, started_as c' c asg -> forall flag b s limit b' s' limit' r,
  system_of b c flag s -> well_numbered b c flag -> bmc_gives b c s limit (CTX asg d) ->
  system_of b' c' flag s' -> well_numbered b' c' flag -> bmc_gives b' c' s' limit' r ->
  match r with CTX _ e => e = d | NoCTX z => (z < Z.of_N d)%Z end.
Proof. exact started_counterexample. Qed.
Print Assumptions C68_counterexample_fixed.

(** With latch 2 = 0 and latch 3 free the circuit is proved, so it is with latch 3 = 1.  With both latches free it has a
    counterexample of depth 0, with 1 and 0 one of depth 1; the proof does not carry over in the other direction. *)
Example C68_case :
  fixes (with_resets 0 1) (with_resets 0 6) /\ fixes (with_resets 1 0) (with_resets 4 6) /\
  fixes (with_resets 0 6) (with_resets 4 6) /\
  exists s1 s2 s3 s4, system_of Debug (with_resets 0 6) false s1 /\ numbering_fits (with_resets 0 6) false /\
    system_of Release (with_resets 0 1) false s2 /\
    system_of Debug (with_resets 4 6) false s3 /\ numbering_fits (with_resets 4 6) false /\
    system_of Release (with_resets 1 0) false s4 /\ numbering_fits (with_resets 1 0) false /\
    (exists inv, gives_verdict Debug (with_resets 0 6) false s1 (Proof inv)) /\
    (exists inv, gives_verdict Release (with_resets 0 1) false s2 (Proof inv)) /\
    candidate_fits (with_resets 0 6) (run_history (H_add H_new [5])) /\ accepted_once s1 (run_history (H_add H_new [5])) /\
    (exists d, gives_verdict Debug (with_resets 4 6) false s3 (ProofCTX d)) /\
    (exists asg, bmc_gives Debug (with_resets 4 6) s3 1 (CTX asg 0)) /\
    (exists asg, bmc_gives Release (with_resets 1 0) s4 1 (CTX asg 1)).
Proof.
  assert (F : forall r2 r3 q2 q3, (q2 = 4 \/ q2 = r2) -> (q3 = 6 \/ q3 = r3) -> fixes (with_resets r2 r3) (with_resets q2 q3)).
  { intros r2 r3 q2 q3 H2 H3. do 5 (split; [reflexivity|]). intros v nx r (j & Hj & ->).
    destruct j as [|[|j]]; [| |destruct j; discriminate Hj]; injection Hj as <- <-.
    - destruct H2 as [->| ->]; [left; reflexivity|right; exists 0%nat; split; reflexivity].
    - destruct H3 as [->| ->]; [left; reflexivity|right; exists 1%nat; split; reflexivity]. }
  split; [apply F; auto|]. split; [apply F; auto|]. split; [apply F; auto|].
  destruct (zero_system Debug) as (s1 & E1 & H1 & N1). destruct (zero_one_system Release) as (s2 & E2 & H2 & N2).
  destruct (free_system Debug) as (s3 & E3 & H3 & N3). destruct (one_system Release) as (s4 & E4 & H4 & N4).
  assert (P1 : exists inv, ic3_stateless Debug no_random brute 100 s1 = Ok (Proof inv))
    by (vm_compute in E1; injection E1 as <-; eexists; vm_compute; reflexivity).
  assert (P2 : exists inv, ic3_stateless Release no_random brute 100 s2 = Ok (Proof inv))
    by (vm_compute in E2; injection E2 as <-; eexists; vm_compute; reflexivity).
  assert (P3 : exists d, ic3_stateless Debug no_random brute 100 s3 = Ok (ProofCTX d))
    by (vm_compute in E3; injection E3 as <-; eexists; vm_compute; reflexivity).
  assert (B3 : exists asg, bmc_search Debug brute (mkClock (fun _ => false) (fun _ => false)) s3 1 = Ok (CTX asg 0))
    by (vm_compute in E3; injection E3 as <-; eexists; vm_compute; reflexivity).
  assert (B4 : exists asg, bmc_search Release brute (mkClock (fun _ => false) (fun _ => false)) s4 1 = Ok (CTX asg 1))
    by (vm_compute in E4; injection E4 as <-; eexists; vm_compute; reflexivity).
  assert (A1 : check_invariant Debug brute brute brute (fun l => l) (fun l => l) s1 (run_history (H_add H_new [5])) = Ok tt)
    by (vm_compute in E1; injection E1 as <-; vm_compute; reflexivity).
  destruct P1 as (i1 & P1), P2 as (i2 & P2), P3 as (d3 & P3), B3 as (a3 & B3), B4 as (a4 & B4).
  exists s1, s2, s3, s4. do 7 (split; [assumption|]).
  split; [exists i1; exact (ic3_case _ _ _ _ _ _ P1)|]. split; [exists i2; exact (ic3_case _ _ _ _ _ _ P2)|].
  split.
  { split; [eexists; reflexivity|]. intros d [<-|[]] l [<-|[]]. vm_compute. split; [discriminate|reflexivity]. }
  split; [exact (accepted_case _ _ _ A1)|]. split; [exists d3; exact (ic3_case _ _ _ _ _ _ P3)|].
  split; [exists a3; apply (bmc_case _ _ false); auto; discriminate|].
  exists a4. apply (bmc_case _ _ false); auto; discriminate.
Qed.

(** The counterexample of the circuit with free latches starts with both at 1. *)
Example C68_counterexample_fixed_case :
  exists s asg s', system_of Debug (with_resets 4 6) false s /\ numbering_fits (with_resets 4 6) false /\
    bmc_gives Debug (with_resets 4 6) s 1 (CTX asg 0) /\ started_as (with_resets 1 1) (with_resets 4 6) asg /\
    system_of Debug (with_resets 1 1) false s' /\ numbering_fits (with_resets 1 1) false /\
    exists asg', bmc_gives Debug (with_resets 1 1) s' 1 (CTX asg' 0).
Proof.
  destruct (free_system Debug) as (s & E & H & N). destruct (both_one_system Debug) as (s' & E' & H' & N').
  assert (B : exists asg, bmc_search Debug brute (mkClock (fun _ => false) (fun _ => false)) s 1 = Ok (CTX asg 0) /\
    value_of asg 2 = true /\ value_of asg 3 = true).
  { vm_compute in E. injection E as <-. eexists. split; [vm_compute; reflexivity|]. split; vm_compute; reflexivity. }
  assert (B' : exists asg, bmc_search Debug brute (mkClock (fun _ => false) (fun _ => false)) s' 1 = Ok (CTX asg 0))
    by (vm_compute in E'; injection E' as <-; eexists; vm_compute; reflexivity).
  destruct B as (asg & B & V2 & V3), B' as (asg' & B'). exists s, asg, s'.
  split; [exact H|]. split; [exact N|]. split; [apply (bmc_case _ _ false); auto; discriminate|].
  split; [|split; [exact H'|]; split; [exact N'|]; exists asg'; apply (bmc_case _ _ false); auto; discriminate].
  split.
  - do 5 (split; [reflexivity|]). intros v nx r (j & Hj & ->).
    destruct j as [|[|j]]; [| |destruct j; discriminate Hj]; injection Hj as <- <-; left; reflexivity.
  - intros v nx r (j & Hj & ->). destruct j as [|[|j]]; [| |destruct j; discriminate Hj]; injection Hj as <- <-;
      (split; [discriminate|]); intros _; [exact V2|exact V3].
Qed.
