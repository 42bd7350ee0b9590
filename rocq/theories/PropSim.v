(** Property C67: simulation and the algorithms do not contradict each other. *)
From Verif Require Import Base Formulas FormulaLogic Aig AigParse Fsts Bmc Solvers Ic3 Pdr Brute Spec SpecText SpecAig SpecAiger SpecFsts SpecAlg
  SpecRename SpecInv SpecSim BruteFacts FormulasFacts AigThms FstsThms PartsThms SimThms.
Open Scope N_scope.

(* ------------------------------------------------------------------------ C67 *)

(** A prover returns a proof if and only if no simulation ever shows a bad literal; and the depth of a counterexample it
    reports is not beyond the first clock at which one shows it. *)
Theorem C67_verdict_simulated :
  forall b c flag s g r, system_of b c flag s -> numbering_fits c flag -> represents g c ->
  gives_verdict b c flag s r ->
  (verdict_proof r <-> forall t, ~ shows_bad c flag g t) /\
  forall d, r = ProofCTX d -> forall t, (t < N.to_nat d)%nat -> ~ shows_bad c flag g t.
Proof. exact verdict_simulated. Qed.
Print Assumptions C67_verdict_simulated.

(** The depth BMC reports is the first clock at which some simulation shows a bad literal; if it reports none, no simulation
    shows one up to the depth searched. *)
Theorem C67_bmc_simulated :
  forall b c flag s g limit r, system_of b c flag s -> well_numbered b c flag -> represents g c ->
  bmc_gives b c s limit r ->
  match r with
  | CTX _ d => shows_bad c flag g (N.to_nat d) /\ forall t, (t < N.to_nat d)%nat -> ~ shows_bad c flag g t
  | NoCTX z => forall t, (Z.of_nat t <= z)%Z -> ~ shows_bad c flag g t
  end.
Proof. exact bmc_simulated. Qed.
Print Assumptions C67_bmc_simulated.

(** A formula [check_invariant] accepted is true of every vector of every simulation. *)
Theorem C67_invariant_simulated :
  forall b c flag s g inv, system_of b c flag s -> numbering_fits c flag -> represents g c ->
  api_cnf inv -> cnf_vars (fun v => 1 <= v <= c_max c) inv -> accepted_once s inv ->
  forall r t vec, simulated g r -> nth_error r t = Some vec -> cnf_true (vector_values vec) inv.
Proof. exact accepted_simulated. Qed.
Print Assumptions C67_invariant_simulated.

(** Gate 5 of the first circuit is 1 at clock 1 of a simulation, and BMC reports depth 1; the second circuit is proved, the
    formula that latch 3 is 0 is accepted for it, and the simulation with the same inputs shows no bad literal. *)
Example C67_case :
  exists s g s' g', system_of Debug (with_bad [] [8; 10]) false s /\ numbering_fits (with_bad [] [8; 10]) false /\
    represents g (with_bad [] [8; 10]) /\
    system_of Debug (with_bad [12] [8]) true s' /\ numbering_fits (with_bad [12] [8]) true /\
    represents g' (with_bad [12] [8]) /\
    shows_bad (with_bad [] [8; 10]) false g 1 /\
    (exists asg, bmc_gives Debug (with_bad [] [8; 10]) s 1 (CTX asg 1)) /\
    (exists d, gives_verdict Debug (with_bad [] [8; 10]) false s (ProofCTX d)) /\
    (exists inv, gives_verdict Debug (with_bad [12] [8]) true s' (Proof inv)) /\
    accepted_once s' (run_history (H_add H_new [7])) /\
    simulated g' [[false; true; false; false; false; false; false]; [false; true; true; false; false; true; false]].
Proof.
  destruct (both_system Debug) as (s & E & H & N). destruct (safe_system Debug) as (s' & E' & H' & N').
  destruct (from_vector_of_bytes (encode ex_style (with_bad [] [8; 10]))) as [g| |] eqn:Eg;
    [|vm_compute in Eg; discriminate..].
  destruct (graph_of (with_bad [] [8; 10]) g eq_refl) as (Hr & _ & _); [vm_compute; repeat split|exact Eg|].
  destruct (from_vector_of_bytes (encode ex_style (with_bad [12] [8]))) as [g'| |] eqn:Eg';
    [|vm_compute in Eg'; discriminate..].
  destruct (graph_of (with_bad [12] [8]) g' eq_refl) as (Hr' & _ & _); [vm_compute; repeat split|exact Eg'|].
  assert (B : exists asg, bmc_search Debug brute (mkClock (fun _ => false) (fun _ => false)) s 1 = Ok (CTX asg 1))
    by (vm_compute in E; injection E as <-; eexists; vm_compute; reflexivity).
  assert (P : exists d, ic3_stateless Debug no_random brute 100 s = Ok (ProofCTX d))
    by (vm_compute in E; injection E as <-; eexists; vm_compute; reflexivity).
  assert (P' : exists inv, ic3_stateless Debug no_random brute 100 s' = Ok (Proof inv))
    by (vm_compute in E'; injection E' as <-; eexists; vm_compute; reflexivity).
  assert (A : check_invariant Debug brute brute brute (fun l => l) (fun l => l) s' (run_history (H_add H_new [7])) = Ok tt)
    by (vm_compute in E'; injection E' as <-; vm_compute; reflexivity).
  assert (D : Forall (fun m : BoolMap => NoDup (keys m)) [[(1, true)]; [(1, true)]])
    by (repeat constructor; intros []).
  destruct B as (asg & B), P as (d & P), P' as (inv & P'). exists s, g, s', g'. do 6 (split; [assumption|]).
  split.
  { eexists _, _. split; [eexists [[(1, true)]; [(1, true)]], []; split; [exact D|]; split; [constructor|]|].
    - vm_compute in Eg. injection Eg as <-. vm_compute. reflexivity.
    - split; [reflexivity|]. exists 10. split; [right; left; reflexivity|vm_compute; reflexivity]. }
  split; [exists asg; apply (bmc_case _ _ false); auto; discriminate|].
  split; [exists d; exact (ic3_case _ _ _ _ _ _ P)|]. split; [exists inv; exact (ic3_case _ _ _ _ _ _ P')|].
  split; [exact (accepted_case _ _ _ A)|].
  exists [[(1, true)]; [(1, true)]], []. split; [exact D|]. split; [constructor|].
  vm_compute in Eg'. injection Eg' as <-. vm_compute. reflexivity.
Qed.
