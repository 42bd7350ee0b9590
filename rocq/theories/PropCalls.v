(** Property C61: how many SAT calls the provers make. *)
From Verif Require Import Base Formulas FormulaLogic Aig AigParse Fsts Bmc Solvers Ic3 Pdr Brute Spec SpecText
  SpecAig SpecAiger SpecFsts SpecAlg Tac BruteFacts AigThms FstsThms BmcThms LogicFacts Ic3Thms SoundThms
  PdrThms CounterGen CounterThms PdrCalls CounterCalls CallLimit PdrLimit.
Open Scope nat_scope.

(* ------------------------------------------------------------------------ C61 *)

(** [n] is the final value of [number_of_sat_calls], without overflow. *)
Theorem C61_stateless_calls :
  forall b c flag s R T fuel d n m,
  system_of b c flag s -> numbering_fits c flag -> random_ok R ->
  solver_correct_below 2147483647 T -> solver_total_below 2147483647 T -> shortest c flag m ->
  ic3_stateless_run b R T fuel s = Ok (ProofCTX d, n) -> m < n.
Proof. exact stateless_calls_shortest. Qed.
Print Assumptions C61_stateless_calls.

Theorem C61_stateful_calls :
  forall b c flag s R SS fuel d n m,
  system_of b c flag s -> numbering_fits c flag -> random_ok R -> stateful_correct SS -> shortest c flag m ->
  ic3_stateful_run b R SS fuel s = Ok (ProofCTX d, n) -> m < n.
Proof. exact stateful_calls_shortest. Qed.
Print Assumptions C61_stateful_calls.

(** PDR asks for a predecessor ([ExtractModel]) at least once per step; only where its counterexamples are
    sound (see C42). *)
Theorem C61_pdr_calls :
  forall b c flag s R SS fuel d n m,
  system_of b c flag s -> numbering_fits c flag -> random_ok R -> stateful_correct SS -> bad_latches_read c flag ->
  shortest c flag m -> pdr_run b R SS fuel s = Ok (ProofCTX d, n) -> m <= calls_extract_model n.
Proof. exact pdr_calls_shortest. Qed.
Print Assumptions C61_pdr_calls.

(** Hence a debug build, which checks the counter, never answers on such a circuit. *)
Theorem C61_stateless_overflows :
  forall c flag s R T fuel m,
  system_of Debug c flag s -> numbering_fits c flag -> random_ok R ->
  solver_correct_below 2147483647 T -> solver_total_below 2147483647 T ->
  shortest c flag m -> (4294967295 <= N.of_nat m)%N ->
  (forall r, ic3_stateless Debug R T fuel s <> Ok r) /\
  (enough_fuel c fuel -> ic3_stateless Debug R T fuel s = Panic).
Proof. exact stateless_overflows. Qed.
Print Assumptions C61_stateless_overflows.

Theorem C61_stateful_overflows :
  forall c flag s R SS fuel m,
  system_of Debug c flag s -> numbering_fits c flag -> random_ok R -> stateful_correct SS ->
  shortest c flag m -> (4294967295 <= N.of_nat m)%N ->
  (forall r, ic3_stateful Debug R SS fuel s <> Ok r) /\
  (enough_fuel c fuel -> ic3_stateful Debug R SS fuel s = Panic).
Proof. exact stateful_overflows. Qed.
Print Assumptions C61_stateful_overflows.

Theorem C61_pdr_overflows :
  forall c flag s R SS fuel m,
  system_of Debug c flag s -> numbering_fits c flag -> random_ok R -> stateful_correct SS -> bad_latches_read c flag ->
  shortest c flag m -> (4294967296 <= N.of_nat m)%N ->
  (forall r, pdr Debug R SS fuel s <> Ok r) /\
  (enough_pdr_fuel c fuel -> pdr Debug R SS fuel s = Panic).
Proof. exact pdr_overflows. Qed.
Print Assumptions C61_pdr_overflows.

(** The number of calls is exponential: some circuit with [n] latches needs [2 ^ n] of them, whatever the
    solvers and the random choices are. *)
Theorem C61_calls_exponential :
  forall b n, (0 < n)%N -> (8 * n <= 2147483647)%N ->
  exists c s, lenN (c_latches c) = n /\ system_of b c false s /\ numbering_fits c false /\
  bad_latches_read c false /\ unsafe c false /\
  (forall R T fuel r k, random_ok R -> solver_correct_below 2147483647 T -> solver_total_below 2147483647 T ->
     ic3_stateless_run b R T fuel s = Ok (r, k) -> (2 ^ n <= N.of_nat k)%N) /\
  (forall R SS fuel r k, random_ok R -> stateful_correct SS ->
     ic3_stateful_run b R SS fuel s = Ok (r, k) -> (2 ^ n <= N.of_nat k)%N) /\
  (forall R SS fuel r k, random_ok R -> stateful_correct SS ->
     pdr_run b R SS fuel s = Ok (r, k) -> (2 ^ n <= N.of_nat (calls_extract_model k) + 1)%N).
Proof. exact counter_calls. Qed.
Print Assumptions C61_calls_exponential.

(** Nor are there more than this, with [2 ^ l] states of the latches. *)
Theorem C61_stateless_calls_most :
  forall b c flag s R T fuel r n,
  system_of b c flag s -> numbering_fits c flag -> random_ok R ->
  solver_correct_below 2147483647 T -> solver_total_below 2147483647 T ->
  ic3_stateless_run b R T fuel s = Ok (r, n) ->
  let l := lenN (c_latches c) in
  (N.of_nat n <= 2 + (2 ^ l + 1) ^ 2 * ((2 ^ l + 1) * (2 ^ l + 2) * (2 ^ l + 3 + 2 * l) + 3 ^ l))%N.
Proof. exact stateless_bounded. Qed.
Print Assumptions C61_stateless_calls_most.

Theorem C61_stateful_calls_most :
  forall b c flag s R SS fuel r n,
  system_of b c flag s -> numbering_fits c flag -> random_ok R -> stateful_correct SS ->
  ic3_stateful_run b R SS fuel s = Ok (r, n) ->
  let l := lenN (c_latches c) in
  (N.of_nat n <= 2 + (2 ^ l + 1) ^ 2 * ((2 ^ l + 1) * (2 ^ l + 2) * (2 ^ l + 3 + 2 * l) + 3 ^ l))%N.
Proof. exact stateful_bounded. Qed.
Print Assumptions C61_stateful_calls_most.

(** The five counts of PDR together. *)
Theorem C61_pdr_calls_most :
  forall b c flag s R SS fuel r n,
  system_of b c flag s -> numbering_fits c flag -> random_ok R -> stateful_correct SS ->
  pdr_run b R SS fuel s = Ok (r, n) ->
  let l := lenN (c_latches c) in
  (N.of_nat (calls_get_bad_cube n + calls_is_blocked n + calls_do_not_extract_model n + calls_no_ind n +
     calls_extract_model n) <=
   (2 ^ l + 1) * (2 ^ l + 3) *
     (1 + (2 ^ l * (2 ^ l + 1) * ((2 ^ l + 2) * (2 ^ l + 3) + 1) + 2) * (2 ^ l + l + 3) + (2 ^ l + 1) * 3 ^ l))%N.
Proof. exact pdr_bounded. Qed.
Print Assumptions C61_pdr_calls_most.

(** A shortest counterexample of two steps takes four calls; [C37_stateless_terminates_refuted] has a
    circuit that meets the hypotheses of the overflow theorems for IC3, [C43_pdr_counter_refuted] for PDR.  On the
    one-bit and two-bit counters IC3 makes two and ten calls, PDR asks for one and five predecessors. *)
Example C61_case :
  solver_correct_below 2147483647 brute /\ solver_total_below 2147483647 brute /\ stateful_correct brute_stateful /\
  random_ok no_random /\ shortest shift_circuit false 2 /\
  (exists s d n, system_of Release shift_circuit false s /\ numbering_fits shift_circuit false /\
    ic3_stateless_run Release no_random brute 20 s = Ok (ProofCTX d, n) /\ n = 4 /\
    ic3_stateful_run Release no_random brute_stateful 20 s = Ok (ProofCTX d, n)) /\
  bad_latches_read shift_circuit false /\
  (exists s d n, system_of Debug shift_circuit false s /\
    pdr_run Debug no_random brute_stateful 100 s = Ok (ProofCTX d, n) /\ calls_extract_model n = 3) /\
  exists s, system_of Debug counter32 false s /\ numbering_fits counter32 false /\
    (forall m, N.of_nat m = 4294967295%N -> shortest counter32 false m) /\
  exists s1 s2 d1 d2 p1 p2 n1 n2, system_of Debug (counter 1) false s1 /\ system_of Debug (counter 2) false s2 /\
    ic3_stateless_run Debug no_random brute 300 s1 = Ok (ProofCTX d1, 2) /\
    ic3_stateless_run Debug no_random brute 300 s2 = Ok (ProofCTX d2, 10) /\
    pdr_run Debug no_random brute_stateful 300 s1 = Ok (ProofCTX p1, n1) /\ calls_extract_model n1 = 1 /\
    pdr_run Debug no_random brute_stateful 300 s2 = Ok (ProofCTX p2, n2) /\ calls_extract_model n2 = 5.
Proof.
  split; [exact (correct_below _ _ brute_correct)|]. split; [exact (total_below _ _ brute_total)|].
  split; [exact brute_stateful_correct|]. split; [exact no_random_ok|]. split; [exact shift_shortest|].
  split.
  - destruct (shift_system Release) as (s & E & Hs & Hn). vm_compute in E. injection E as <-.
    do 3 eexists. split; [exact Hs|]. split; [exact Hn|]. split; [vm_compute; reflexivity|].
    split; [reflexivity|]. vm_compute; reflexivity.
  - split; [exact shift_latches_read|]. split.
    { destruct (shift_system Debug) as (s & E & Hs & Hn). vm_compute in E. injection E as <-.
      do 3 eexists. split; [exact Hs|]. split; vm_compute; reflexivity. }
    destruct (counter32_system Debug) as (s & Hs & Hn). exists s. split; [exact Hs|]. split; [exact Hn|].
    split; [exact counter32_shortest|].
    assert (E : forall k, k = 1 \/ k = 2 -> exists s, fsts_of Debug (counter k) false = Ok s /\ system_of Debug (counter k) false s).
    { intros k [-> | ->]; (eexists; split; [vm_compute; reflexivity|];
        apply fsts_of_system; [vm_compute; reflexivity|vm_compute; repeat split|vm_compute; reflexivity]). }
    destruct (E 1 (or_introl eq_refl)) as (s1 & E1 & H1). destruct (E 2 (or_intror eq_refl)) as (s2 & E2 & H2).
    vm_compute in E1, E2. injection E1 as <-. injection E2 as <-.
    do 8 eexists. split; [exact H1|]. split; [exact H2|]. do 5 (split; [vm_compute; reflexivity|]). vm_compute; reflexivity.
Qed.
