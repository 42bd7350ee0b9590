(** Property C59: the number of latches on which badness depends bounds the search. *)
From Verif Require Import Base Formulas FormulaLogic Aig AigParse Fsts Bmc Solvers Ic3 Pdr Brute Spec SpecText
  SpecAig SpecAiger SpecFsts SpecAlg Tac BruteFacts AigFacts AigThms FstsThms BmcThms LogicFacts ConeThms SoundThms ProverThms
  CounterGen CounterThms CounterCalls.
Open Scope N_scope.

(* ------------------------------------------------------------------------ C59 *)

(** If BMC found nothing up to clock [2 ^ n - 1] and badness depends on at most [n] latches, the
    circuit is safe at every clock. *)
Theorem C59_noctx_proves_safety :
  forall m b c flag s T clk limit z ls,
  system_of b c flag s -> well_numbered b c flag -> solver_sound_below m T ->
  limit < 4294967296 -> b = Debug /\ m = 2147483648 \/ (limit + 1) * c_max c < m <= 2147483648 ->
  bmc_search b T clk s limit = Ok (NoCTX z) ->
  covers_bad c flag ls -> (2 ^ Z.of_nat (length ls) <= z + 1)%Z -> safe c flag.
Proof. exact bmc_noctx_safe. Qed.
Print Assumptions C59_noctx_proves_safety.

(** With such a limit BMC decides safety. *)
Theorem C59_bmc_decides :
  forall m b c flag s T clk limit ls,
  system_of b c flag s -> well_numbered b c flag -> solver_correct_below m T ->
  limit <= 2147483647 -> (limit + 1) * c_max c < m <= 2147483648 -> never_times_out clk ->
  covers_bad c flag ls -> 2 ^ lenN ls <= limit + 1 ->
  (bmc_search b T clk s limit = Ok (NoCTX (Z.of_N limit)) <-> safe c flag) /\
  ((exists asg d, bmc_search b T clk s limit = Ok (CTX asg d) /\ d < 2 ^ lenN ls) <-> unsafe c flag).
Proof. exact bmc_decides. Qed.
Print Assumptions C59_bmc_decides.

(** The provers report no larger depth either. *)
Theorem C59_prover_depth :
  forall b c flag s R1 R2 R3 T S2 S3 fuel ls d, system_of b c flag s -> numbering_fits c flag ->
  random_ok R1 -> random_ok R2 -> random_ok R3 ->
  solver_sound_below 2147483647 T -> stateful_sound S2 -> stateful_sound S3 -> covers_bad c flag ls ->
  ic3_stateless b R1 T fuel s = Ok (ProofCTX d) \/ ic3_stateful b R2 S2 fuel s = Ok (ProofCTX d) \/
  bad_latches_read c flag /\ pdr b R3 S3 fuel s = Ok (ProofCTX d) ->
  d < 2 ^ lenN ls.
Proof. exact depth_below_cone. Qed.
Print Assumptions C59_prover_depth.

(** The bound is reached for every number of latches: some circuit with [n] latches has no counterexample
    of fewer than [2 ^ n - 1] steps. *)
Theorem C59_bound_reached :
  forall n, exists c, circuit_wf c /\ lenN (c_latches c) = n /\
  forall m, N.of_nat m + 1 = 2 ^ n -> shortest c false m.
Proof. exact counter_bound. Qed.
Print Assumptions C59_bound_reached.

(** So no smaller limit would do: with [2 ^ n - 2] BMC misses a counterexample. *)
Theorem C59_smaller_limit_misses :
  forall b n limit, 0 < n -> limit + 2 = 2 ^ n -> (limit + 1) * (4 * n) < 2147483648 ->
  exists c s, lenN (c_latches c) = n /\ system_of b c false s /\ numbering_fits c false /\ unsafe c false /\
  forall T clk, solver_correct_below 2147483648 T -> never_times_out clk ->
  bmc_search b T clk s limit = Ok (NoCTX (Z.of_N limit)).
Proof. exact counter_bmc. Qed.
Print Assumptions C59_smaller_limit_misses.

(** [shift_circuit] has three latches, but badness depends on two; [counter_circuit] has two and needs
    three steps, so the bound is reached; [differ_circuit] has two, and three steps prove it safe.  The
    hypotheses of [C59_smaller_limit_misses] hold for up to 24 latches. *)
Example C59_case :
  covers_bad shift_circuit false [2; 3] /\ ~ covers_bad shift_circuit false [2] /\
  lenN (c_latches shift_circuit) = 3 /\ lenN (c_latches counter_circuit) = 2 /\ lenN (c_latches differ_circuit) = 2 /\
  exists s1 s2 s3 a1 a2,
    system_of Debug shift_circuit false s1 /\ system_of Debug counter_circuit false s2 /\
    system_of Debug differ_circuit false s3 /\
    bmc_search Debug brute (mkClock (fun _ => false) (fun _ => false)) s1 3 = Ok (CTX a1 2) /\
    bmc_search Debug brute (mkClock (fun _ => false) (fun _ => false)) s2 3 = Ok (CTX a2 3) /\
    bmc_search Debug brute (mkClock (fun _ => false) (fun _ => false)) s2 2 = Ok (NoCTX 2) /\
    bmc_search Debug brute (mkClock (fun _ => false) (fun _ => false)) s3 3 = Ok (NoCTX 3) /\
    safe differ_circuit false /\
    16777214 + 2 = 2 ^ 24 /\ (16777214 + 1) * (4 * 24) < 2147483648.
Proof.
  split; [exact shift_cone|]. split; [exact shift_cone_least|]. do 3 (split; [reflexivity|]).
  destruct (shift_system Debug) as (s1 & E1 & H1 & _). system_case Debug counter_circuit.
  destruct (differ_system Debug) as (s3 & E3 & H3 & N3). exists s1. eexists. exists s3. do 2 eexists.
  split; [exact H1|]. split; [exact Hs|]. split; [exact H3|].
  vm_compute in E1, E3. injection E1 as <-. injection E3 as <-.
  do 4 (split; [vm_compute; reflexivity|]). split; [|split; reflexivity].
  eapply C59_noctx_proves_safety with (m := 2147483648) (T := brute) (limit := 3)
    (clk := mkClock (fun _ => false) (fun _ => false)) (z := 3%Z);
    [exact H3|left; reflexivity|exact (correct_sound _ _ (correct_below _ _ brute_correct))|reflexivity
    |left; split; reflexivity|vm_compute; reflexivity|apply latches_cover|vm_compute; discriminate].
Qed.
