(** Property C66: bad literals checked together or one by one. *)
From Verif Require Import Base Formulas FormulaLogic Aig AigParse Fsts Bmc Solvers Ic3 Pdr Brute Spec SpecText SpecAig SpecAiger SpecFsts SpecAlg
  SpecRename SpecInv SpecParts BruteFacts FormulasFacts PartsThms.
Open Scope N_scope.

(* ------------------------------------------------------------------------ C66 *)

(** A proof for all bad literals: no prover reports a counterexample for some of them. *)
Theorem C66_proof_of_all :
  forall c flag ps, splits c flag ps -> forall b s inv p b' s' r,
  system_of b c flag s -> numbering_fits c flag -> gives_verdict b c flag s (Proof inv) ->
  In p ps -> system_of b' (fst p) (snd p) s' -> numbering_fits (fst p) (snd p) -> gives_verdict b' (fst p) (snd p) s' r ->
  verdict_proof r.
Proof. exact proof_of_all. Qed.
Print Assumptions C66_proof_of_all.

(** Proofs for all parts: no prover reports a counterexample for the whole. *)
Theorem C66_proof_of_parts :
  forall c flag ps, splits c flag ps -> forall b s r,
  system_of b c flag s -> numbering_fits c flag -> gives_verdict b c flag s r ->
  (forall p, In p ps -> proved_part p) -> verdict_proof r.
Proof. exact proof_of_parts. Qed.
Print Assumptions C66_proof_of_parts.

(** A counterexample for a part: BMC finds one for the whole that is not longer, or stops before. *)
Theorem C66_counterexample_of_part :
  forall c flag ps, splits c flag ps -> forall b s limit r p asg d,
  system_of b c flag s -> well_numbered b c flag -> bmc_gives b c s limit r ->
  In p ps -> searched_part p (CTX asg d) ->
  match r with CTX _ e => e <= d | NoCTX z => (z < Z.of_N d)%Z end.
Proof. exact counterexample_of_part. Qed.
Print Assumptions C66_counterexample_of_part.

(** A counterexample for the whole: if all parts were searched that far, one of them has a counterexample of the same
    length. *)
Theorem C66_counterexample_of_all :
  forall c flag ps, splits c flag ps -> forall b s limit asg d,
  system_of b c flag s -> well_numbered b c flag -> bmc_gives b c s limit (CTX asg d) ->
  (forall p, In p ps -> (exists asg e, searched_part p (CTX asg e)) \/
     exists z, searched_part p (NoCTX z) /\ (Z.of_N d <= z)%Z) ->
  exists p asg', In p ps /\ searched_part p (CTX asg' d).
Proof. exact counterexample_of_all. Qed.
Print Assumptions C66_counterexample_of_all.

(** Invariants over latches for the parts, appended to each other, are an invariant for the whole. *)
Theorem C66_certificate_of_parts :
  forall c flag ps, splits c flag ps -> forall b s invs,
  system_of b c flag s -> numbering_fits c flag ->
  Forall2 certified_part ps invs -> accepted_for s (fold_left cnf_append invs cnf_new).
Proof. exact certificate_of_parts. Qed.
Print Assumptions C66_certificate_of_parts.

(** Gates 4 and 6 are never 1, gate 5 is after one step.  Gate 4 and gate 5 together have the counterexample of
    gate 5; gate 4 and gate 6 are proved together and one by one, and the formula that latch 3 is 0 is accepted for both. *)
Example C66_case :
  splits (with_bad [] [8; 10]) false [(with_bad [] [8], false); (with_bad [10] [], true)] /\
  splits (with_bad [12] [8]) true [(with_bad [] [8], false); (with_bad [12] [], true)] /\
  proved_part (with_bad [] [8], false) /\ proved_part (with_bad [12] [], true) /\
  searched_part (with_bad [] [8], false) (NoCTX 1) /\
  (exists asg, searched_part (with_bad [10] [], true) (CTX asg 1)) /\
  certified_part (with_bad [] [8], false) (run_history (H_add H_new [7])) /\
  certified_part (with_bad [12] [], true) (run_history (H_add H_new [7])) /\
  exists s s', system_of Debug (with_bad [] [8; 10]) false s /\ numbering_fits (with_bad [] [8; 10]) false /\
    system_of Debug (with_bad [12] [8]) true s' /\ numbering_fits (with_bad [12] [8]) true /\
    (exists asg, bmc_gives Debug (with_bad [] [8; 10]) s 1 (CTX asg 1)) /\
    (exists d, gives_verdict Debug (with_bad [] [8; 10]) false s (ProofCTX d)) /\
    (exists inv, gives_verdict Debug (with_bad [12] [8]) true s' (Proof inv)).
Proof.
  assert (V : forall outs bads d, In d (cnf_clauses (run_history (H_add H_new [7]))) -> forall l, In l (clause_lits d) ->
    is_latch (with_bad outs bads) (lit_var l)).
  { intros outs bads d [<-|[]] l [<-|[]]. exists 0, 0, 1%nat. split; reflexivity. }
  destruct (both_system Debug) as (s1 & E1 & H1 & N1). destruct (first_system Debug) as (s2 & E2 & H2 & N2).
  destruct (second_system Release) as (s3 & E3 & H3 & N3). destruct (third_system Debug) as (s4 & E4 & H4 & N4).
  destruct (safe_system Debug) as (s5 & E5 & H5 & N5).
  assert (P2 : exists inv, ic3_stateless Debug no_random brute 100 s2 = Ok (Proof inv))
    by (vm_compute in E2; injection E2 as <-; eexists; vm_compute; reflexivity).
  assert (P4 : exists inv, ic3_stateless Debug no_random brute 100 s4 = Ok (Proof inv))
    by (vm_compute in E4; injection E4 as <-; eexists; vm_compute; reflexivity).
  assert (P5 : exists inv, ic3_stateless Debug no_random brute 100 s5 = Ok (Proof inv))
    by (vm_compute in E5; injection E5 as <-; eexists; vm_compute; reflexivity).
  assert (P1 : exists d, ic3_stateless Debug no_random brute 100 s1 = Ok (ProofCTX d))
    by (vm_compute in E1; injection E1 as <-; eexists; vm_compute; reflexivity).
  assert (B1 : exists asg, bmc_search Debug brute (mkClock (fun _ => false) (fun _ => false)) s1 1 = Ok (CTX asg 1))
    by (vm_compute in E1; injection E1 as <-; eexists; vm_compute; reflexivity).
  assert (B2 : bmc_search Debug brute (mkClock (fun _ => false) (fun _ => false)) s2 1 = Ok (NoCTX 1))
    by (vm_compute in E2; injection E2 as <-; vm_compute; reflexivity).
  assert (B3 : exists asg, bmc_search Release brute (mkClock (fun _ => false) (fun _ => false)) s3 2 = Ok (CTX asg 1))
    by (vm_compute in E3; injection E3 as <-; eexists; vm_compute; reflexivity).
  assert (A2 : check_invariant Debug brute brute brute (fun l => l) (fun l => l) s2 (run_history (H_add H_new [7])) = Ok tt)
    by (vm_compute in E2; injection E2 as <-; vm_compute; reflexivity).
  assert (A4 : check_invariant Debug brute brute brute (fun l => l) (fun l => l) s4 (run_history (H_add H_new [7])) = Ok tt)
    by (vm_compute in E4; injection E4 as <-; vm_compute; reflexivity).
  destruct P1 as (d1 & P1), P2 as (i2 & P2), P4 as (i4 & P4), P5 as (i5 & P5), B1 as (a1 & B1), B3 as (a3 & B3).
  split.
  { split; [intros p [<-|[<-|[]]]; repeat split|]. intros l. split.
    - intros [<-|[<-|[]]]; [exists (with_bad [] [8], false)|exists (with_bad [10] [], true)]; vm_compute; tauto.
    - intros (p & [<-|[<-|[]]] & Hl); vm_compute in Hl |- *; tauto. }
  split.
  { split; [intros p [<-|[<-|[]]]; repeat split|]. intros l. split.
    - intros [<-|[<-|[]]]; [exists (with_bad [] [8], false)|exists (with_bad [12] [], true)]; vm_compute; tauto.
    - intros (p & [<-|[<-|[]]] & Hl); vm_compute in Hl |- *; tauto. }
  split; [exists Debug, s2, i2; split; [exact H2|split; [exact N2|exact (ic3_case _ _ _ _ _ _ P2)]]|].
  split; [exists Debug, s4, i4; split; [exact H4|split; [exact N4|exact (ic3_case _ _ _ _ _ _ P4)]]|].
  split; [exists Debug, s2, 1; split; [exact H2|split; [exact (or_intror N2)|]]; apply (bmc_case _ _ false); auto; discriminate|].
  split; [exists a3, Release, s3, 2; split; [exact H3|split; [exact (or_intror N3)|]]; apply (bmc_case _ _ true); auto; discriminate|].
  split; [split; [eexists; reflexivity|]; split; [exact (V _ _)|]; exists Debug, s2; split; [exact H2|split; [exact N2|exact (accepted_case _ _ _ A2)]]|].
  split; [split; [eexists; reflexivity|]; split; [exact (V _ _)|]; exists Debug, s4; split; [exact H4|split; [exact N4|exact (accepted_case _ _ _ A4)]]|].
  exists s1, s5. do 4 (split; [assumption|]).
  split; [exists a1; apply (bmc_case _ _ false); auto; discriminate|].
  split; [exists d1; exact (ic3_case _ _ _ _ _ _ P1)|exists i5; exact (ic3_case _ _ _ _ _ _ P5)].
Qed.
