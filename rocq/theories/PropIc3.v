(** Properties C35 - C40: IC3 with a stateless and with a stateful solver. *)
From Verif Require Import Base Formulas FormulaLogic Aig AigParse Fsts Bmc Solvers Ic3 Brute Spec SpecText
  SpecAig SpecAiger SpecFsts SpecAlg Tac BruteFacts AigThms FstsThms BmcThms LogicFacts Ic3Thms SoundThms CounterThms FuelFacts CallLimit SlowThms.
Open Scope nat_scope.

(* ------------------------------------------------------------------------ C35 *)

(** The circuit is safe, the returned formula is an inductive safe invariant of it, and
    [check_invariant] accepts it in both builds. *)
Theorem C35_stateless_proof_sound :
  forall b c flag s R T fuel inv,
  system_of b c flag s -> numbering_fits c flag -> random_ok R -> solver_sound_below 2147483647 T ->
  ic3_stateless b R T fuel s = Ok (Proof inv) ->
  safe c flag /\ inductive_safe c flag (fun w => cnf_true w inv) /\
  forall b' T1 T2 T3 o1 o2,
    solver_correct_below 2147483647 T1 -> solver_correct_below 2147483647 T2 ->
    solver_correct_below 2147483647 T3 -> order_ok o1 -> order_ok o2 ->
    check_invariant b' T1 T2 T3 o1 o2 s inv = Ok tt.
Proof. exact stateless_sound_proof. Qed.
Print Assumptions C35_stateless_proof_sound.

Example C35_case :
  solver_sound_below 2147483647 brute /\ random_ok no_random /\
  exists s inv, fsts_of Debug differ_circuit false = Ok s /\ system_of Debug differ_circuit false s /\
    numbering_fits differ_circuit false /\
    ic3_stateless Debug no_random brute 20 s = Ok (Proof inv) /\
    cnf_len inv <> 0%N /\ 
    check_invariant Release brute brute brute (fun l => l) (fun l => l) s inv = Ok tt.
Proof.
  split; [apply correct_sound, correct_below, brute_correct|]. split; [exact no_random_ok|].
  destruct (differ_system Debug) as (s & E & Hs & Hn). 
  vm_compute in E. injection E as <-. do 2 eexists. split; [vm_compute; reflexivity|].
  split; [exact Hs|]. split; [exact Hn|]. split; [vm_compute; reflexivity|]. 
  split; [vm_compute; discriminate|vm_compute; reflexivity].
Qed.

(* ------------------------------------------------------------------------ C36 *)

Theorem C36_stateless_ctx_sound :
  forall b c flag s R T fuel d,
  system_of b c flag s -> numbering_fits c flag -> random_ok R -> solver_sound_below 2147483647 T ->
  ic3_stateless b R T fuel s = Ok (ProofCTX d) ->
  unsafe c flag /\ safe_before c flag (N.to_nat d).
Proof. exact stateless_sound_ctx. Qed.
Print Assumptions C36_stateless_ctx_sound.

Example C36_case :
  exists s d, fsts_of Debug shift_circuit false = Ok s /\ system_of Debug shift_circuit false s /\
    numbering_fits shift_circuit false /\
    ic3_stateless Debug no_random brute 20 s = Ok (ProofCTX d) /\ d <> 0%N.
Proof.
  destruct (shift_system Debug) as (s & E & Hs & Hn). 
  vm_compute in E. injection E as <-. do 2 eexists. split; [vm_compute; reflexivity|].
  split; [exact Hs|]. split; [exact Hn|]. split; [vm_compute; reflexivity|]. discriminate.
Qed.

(* ------------------------------------------------------------------------ C37 *)

(** Full claim: [prove] returns for every accepted file.  Proved: it always stops; it returns,
    with the right verdict, unless the shortest counterexample has 2^32 steps or more (then the
    conversion of the depth to [u32] may panic), or, in a debug build, the [u32] that counts SAT
    calls overflows (then it panics, and only then). *)
Theorem C37_stateless_terminates_partial :
  forall b c flag s R T fuel,
  system_of b c flag s -> numbering_fits c flag -> random_ok R -> solver_correct_below 2147483647 T -> solver_total_below 2147483647 T ->
  enough_fuel c fuel -> depth_fits c flag ->
  exists r n, ic3_stateless_run b R T fuel s = Ok (r, n) /\ (verdict_proof r <-> safe c flag) /\
    ic3_stateless b R T fuel s = counted_answer b (N.of_nat n) r.
Proof. exact stateless_answers. Qed.
Print Assumptions C37_stateless_terminates_partial.

(** In a debug build the full claim is false: this circuit is a 32-bit counter.  Its shortest
    counterexample has 2^32 - 1 steps, so that the depth fits, but the prover makes more SAT calls
    than the counterexample has steps (C61): whatever the solver and the random choices, it never
    returns, and given time it panics. *)
Theorem C37_stateless_terminates_refuted :
  exists c s, system_of Debug c false s /\ numbering_fits c false /\ depth_fits c false /\
  forall R T fuel, random_ok R -> solver_correct_below 2147483647 T -> solver_total_below 2147483647 T ->
  (forall r, ic3_stateless Debug R T fuel s <> Ok r) /\
  (enough_fuel c fuel -> ic3_stateless Debug R T fuel s = Panic).
Proof. exact (ex_intro _ counter32 stateless_counter). Qed.
Print Assumptions C37_stateless_terminates_refuted.

(** In both builds it is false also for another reason, where the depth does not fit.  This circuit counts to
    2^33 - 1 and reports that two clocks later; it is unsafe.  With some random choices the prover needs a frame for
    every number, and the number of frames cannot be converted to [u32]: whatever the solver, it never returns, and
    given time it panics. *)
Theorem C37_stateless_depth_refuted :
  exists c R, numbering_fits c false /\ random_ok R /\ ~ safe c false /\
  forall b, exists s, system_of b c false s /\
  forall T fuel, solver_correct_below 2147483647 T -> solver_total_below 2147483647 T ->
  (forall r, ic3_stateless b R T fuel s <> Ok r) /\
  (enough_fuel c fuel -> ic3_stateless b R T fuel s = Panic).
Proof. exact stateless_too_deep. Qed.
Print Assumptions C37_stateless_depth_refuted.

Theorem C37_stateless_always_stops :
  forall b c flag s R T fuel,
  system_of b c flag s -> numbering_fits c flag -> random_ok R -> solver_sound_below 2147483647 T ->
  enough_fuel c fuel -> ic3_stateless b R T fuel s <> OutOfFuel.
Proof. exact stateless_sound_fuel. Qed.
Print Assumptions C37_stateless_always_stops.

(** The fuel stands for a loop of the program without a bound: a result reached with some fuel is reached with
    any larger fuel, on every system and with every solver. *)
Theorem C37_stateless_any_fuel :
  forall b R T fuel fuel' s, fuel <= fuel' ->
  (ic3_stateless b R T fuel s <> OutOfFuel -> ic3_stateless b R T fuel' s = ic3_stateless b R T fuel s) /\
  (ic3_stateless_twice b R T fuel s <> OutOfFuel ->
     ic3_stateless_twice b R T fuel' s = ic3_stateless_twice b R T fuel s).
Proof. exact stateless_any_fuel. Qed.
Print Assumptions C37_stateless_any_fuel.

(** The full claim, in both builds, for circuits with at most six latches: the SAT calls cannot be so many
    that the counter overflows (C61). *)
Theorem C37_stateless_small :
  forall b c flag s R T fuel,
  system_of b c flag s -> numbering_fits c flag -> random_ok R -> solver_correct_below 2147483647 T -> solver_total_below 2147483647 T ->
  enough_fuel c fuel -> (lenN (c_latches c) <= 6)%N ->
  exists r, ic3_stateless b R T fuel s = Ok r /\ (verdict_proof r <-> safe c flag).
Proof. exact stateless_small. Qed.
Print Assumptions C37_stateless_small.

Example C37_case :
  enough_fuel shift_circuit 100 /\ depth_fits shift_circuit false /\
  enough_fuel differ_circuit 100 /\ depth_fits differ_circuit false /\
  (lenN (c_latches differ_circuit) <= 6)%N /\
  exists s, fsts_of Release differ_circuit false = Ok s /\ system_of Release differ_circuit false s /\
    numbering_fits differ_circuit false /\
    exists inv, ic3_stateless_run Release no_random brute 100 s = Ok (Proof inv, 3) /\
      ic3_stateless Release no_random brute 100 s = Ok (Proof inv).
Proof.
  split; [unfold enough_fuel; vm_compute; lia|]. split; [apply few_latches_fit; vm_compute; discriminate|].
  split; [unfold enough_fuel; vm_compute; lia|]. split; [apply few_latches_fit; vm_compute; discriminate|].
  split; [vm_compute; discriminate|].
  destruct (differ_system Release) as (s & E & Hs & Hn). 
  vm_compute in E. injection E as <-. eexists. split; [vm_compute; reflexivity|].
  split; [exact Hs|]. split; [exact Hn|]. eexists. split; vm_compute; reflexivity.
Qed.

(* ------------------------------------------------------------------------ C38 *)

(** The circuit is safe, the returned formula is an inductive safe invariant of it, and
    [check_invariant] accepts it in both builds.  The solver may panic (see C12 and C13). *)
Theorem C38_stateful_proof_sound :
  forall b c flag s R SS fuel inv,
  system_of b c flag s -> numbering_fits c flag -> random_ok R -> stateful_sound SS ->
  ic3_stateful b R SS fuel s = Ok (Proof inv) ->
  safe c flag /\ inductive_safe c flag (fun w => cnf_true w inv) /\
  forall b' T1 T2 T3 o1 o2,
    solver_correct_below 2147483647 T1 -> solver_correct_below 2147483647 T2 ->
    solver_correct_below 2147483647 T3 -> order_ok o1 -> order_ok o2 ->
    check_invariant b' T1 T2 T3 o1 o2 s inv = Ok tt.
Proof. exact sound_proof. Qed.
Print Assumptions C38_stateful_proof_sound.

Example C38_case :
  (stateful_sound brute_stateful) /\ random_ok no_random /\
  exists s inv, fsts_of Debug differ_circuit false = Ok s /\ system_of Debug differ_circuit false s /\
    numbering_fits differ_circuit false /\
    ic3_stateful Debug no_random brute_stateful 20 s = Ok (Proof inv) /\
    cnf_len inv <> 0%N /\ 
    check_invariant Release brute brute brute (fun l => l) (fun l => l) s inv = Ok tt.
Proof.
  split; [exact brute_stateful_sound|]. split; [exact no_random_ok|].
  destruct (differ_system Debug) as (s & E & Hs & Hn). 
  vm_compute in E. injection E as <-. do 2 eexists. split; [vm_compute; reflexivity|].
  split; [exact Hs|]. split; [exact Hn|]. split; [vm_compute; reflexivity|]. 
  split; [vm_compute; discriminate|vm_compute; reflexivity].
Qed.

(* ------------------------------------------------------------------------ C39 *)

Theorem C39_stateful_ctx_sound :
  forall b c flag s R SS fuel d,
  system_of b c flag s -> numbering_fits c flag -> random_ok R -> stateful_sound SS ->
  ic3_stateful b R SS fuel s = Ok (ProofCTX d) ->
  unsafe c flag /\ safe_before c flag (N.to_nat d).
Proof. exact sound_ctx. Qed.
Print Assumptions C39_stateful_ctx_sound.

Example C39_case :
  exists s d, fsts_of Debug shift_circuit false = Ok s /\ system_of Debug shift_circuit false s /\
    numbering_fits shift_circuit false /\
    ic3_stateful Debug no_random brute_stateful 20 s = Ok (ProofCTX d) /\ d <> 0%N.
Proof.
  destruct (shift_system Debug) as (s & E & Hs & Hn). 
  vm_compute in E. injection E as <-. do 2 eexists. split; [vm_compute; reflexivity|].
  split; [exact Hs|]. split; [exact Hn|]. split; [vm_compute; reflexivity|]. discriminate.
Qed.

(* ------------------------------------------------------------------------ C40 *)

(** Full claim: [prove] returns for every accepted file.  Proved: it always stops; it returns,
    with the right verdict, unless the shortest counterexample has 2^32 steps or more (then the
    conversion of the depth to [u32] may panic), or, in a debug build, the [u32] that counts SAT
    calls overflows (then it panics, and only then). *)
Theorem C40_stateful_terminates_partial :
  forall b c flag s R SS fuel,
  system_of b c flag s -> numbering_fits c flag -> random_ok R -> stateful_correct SS ->
  enough_fuel c fuel -> depth_fits c flag ->
  exists r n, ic3_stateful_run b R SS fuel s = Ok (r, n) /\ (verdict_proof r <-> safe c flag) /\
    ic3_stateful b R SS fuel s = counted_answer b (N.of_nat n) r.
Proof. exact stateful_answers. Qed.
Print Assumptions C40_stateful_terminates_partial.

(** In a debug build the full claim is false (see C37). *)
Theorem C40_stateful_terminates_refuted :
  exists c s, system_of Debug c false s /\ numbering_fits c false /\ depth_fits c false /\
  forall R SS fuel, random_ok R -> stateful_correct SS ->
  (forall r, ic3_stateful Debug R SS fuel s <> Ok r) /\
  (enough_fuel c fuel -> ic3_stateful Debug R SS fuel s = Panic).
Proof. exact (ex_intro _ counter32 stateful_counter). Qed.
Print Assumptions C40_stateful_terminates_refuted.

(** As for C37. *)
Theorem C40_stateful_depth_refuted :
  exists c R, numbering_fits c false /\ random_ok R /\ ~ safe c false /\
  forall b, exists s, system_of b c false s /\
  forall SS fuel, stateful_correct SS ->
  (forall r, ic3_stateful b R SS fuel s <> Ok r) /\
  (enough_fuel c fuel -> ic3_stateful b R SS fuel s = Panic).
Proof. exact stateful_too_deep. Qed.
Print Assumptions C40_stateful_depth_refuted.

Theorem C40_stateful_always_stops :
  forall b c flag s R SS fuel,
  system_of b c flag s -> numbering_fits c flag -> random_ok R -> stateful_sound SS ->
  enough_fuel c fuel -> ic3_stateful b R SS fuel s <> OutOfFuel.
Proof. exact sound_fuel. Qed.
Print Assumptions C40_stateful_always_stops.

(** As for C37. *)
Theorem C40_stateful_any_fuel :
  forall b R SS fuel fuel' s, fuel <= fuel' ->
  (ic3_stateful b R SS fuel s <> OutOfFuel -> ic3_stateful b R SS fuel' s = ic3_stateful b R SS fuel s) /\
  (ic3_stateful_twice b R SS fuel s <> OutOfFuel ->
     ic3_stateful_twice b R SS fuel' s = ic3_stateful_twice b R SS fuel s).
Proof. exact stateful_any_fuel. Qed.
Print Assumptions C40_stateful_any_fuel.

(** As for C37. *)
Theorem C40_stateful_small :
  forall b c flag s R SS fuel,
  system_of b c flag s -> numbering_fits c flag -> random_ok R -> stateful_correct SS ->
  enough_fuel c fuel -> (lenN (c_latches c) <= 6)%N ->
  exists r, ic3_stateful b R SS fuel s = Ok r /\ (verdict_proof r <-> safe c flag).
Proof. exact stateful_small. Qed.
Print Assumptions C40_stateful_small.

Example C40_case :
  enough_fuel shift_circuit 100 /\ depth_fits shift_circuit false /\
  enough_fuel differ_circuit 100 /\ depth_fits differ_circuit false /\
  (lenN (c_latches differ_circuit) <= 6)%N /\
  exists s, fsts_of Release differ_circuit false = Ok s /\ system_of Release differ_circuit false s /\
    numbering_fits differ_circuit false /\
    exists inv, ic3_stateful_run Release no_random brute_stateful 100 s = Ok (Proof inv, 3) /\
      ic3_stateful Release no_random brute_stateful 100 s = Ok (Proof inv).
Proof.
  split; [unfold enough_fuel; vm_compute; lia|]. split; [apply few_latches_fit; vm_compute; discriminate|].
  split; [unfold enough_fuel; vm_compute; lia|]. split; [apply few_latches_fit; vm_compute; discriminate|].
  split; [vm_compute; discriminate|].
  destruct (differ_system Release) as (s & E & Hs & Hn). 
  vm_compute in E. injection E as <-. eexists. split; [vm_compute; reflexivity|].
  split; [exact Hs|]. split; [exact Hn|]. eexists. split; vm_compute; reflexivity.
Qed.
