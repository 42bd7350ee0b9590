(** Properties C41 - C46: PDR, the provers compared, and provers asked twice. *)
From Verif Require Import Base Formulas FormulaLogic Aig AigParse Fsts Bmc Solvers Ic3 Pdr Brute Spec SpecText
  SpecAig SpecAiger SpecFsts SpecAlg Tac BruteFacts AigThms FstsThms BmcThms Ic3Thms PdrThms ProverThms TwiceThms LogicFacts SoundThms
  CounterGen CounterCalls FuelFacts PdrLimit LongThms.
Open Scope nat_scope.

(* ------------------------------------------------------------------------ C41 *)

(** Full claim: for every accepted file.  Proved: in debug builds always, in release builds when
    every latch that is a bad literal is also read by a gate below the bad literals
    ([bad_latches_read]).  Without this condition the claim is false, see below. *)
Theorem C41_pdr_proof_sound_partial :
  forall c flag s b, system_of b c flag s -> numbering_fits c flag ->
  forall SS, stateful_sound SS -> forall R, random_ok R -> forall fuel inv,
  b = Debug \/ bad_latches_read c flag ->
  pdr b R SS fuel s = Ok (Proof inv) ->
  safe c flag /\ inductive_safe c flag (fun w => cnf_true w inv) /\
  forall b' T1 T2 T3 o1 o2,
    solver_correct_below 2147483647 T1 -> solver_correct_below 2147483647 T2 ->
    solver_correct_below 2147483647 T3 -> order_ok o1 -> order_ok o2 ->
    check_invariant b' T1 T2 T3 o1 o2 s inv = Ok tt.
Proof. exact sound_pdr_proof. Qed.
Print Assumptions C41_pdr_proof_sound_partial.

(** A release build "proves" an unsafe circuit whose bad literal is a latch. *)
Theorem C41_pdr_proof_sound_refuted :
  exists c flag s inv, system_of Release c flag s /\ numbering_fits c flag /\
  pdr Release no_random brute_stateful 100 s = Ok (Proof inv) /\ ~ safe c flag /\
  check_invariant Release brute brute brute (fun l => l) (fun l => l) s inv = Panic.
Proof. exact false_proof. Qed.
Print Assumptions C41_pdr_proof_sound_refuted.

Example C41_case :
  stateful_sound brute_stateful /\ random_ok no_random /\ bad_latches_read differ_circuit false /\
  exists s inv, fsts_of Release differ_circuit false = Ok s /\ system_of Release differ_circuit false s /\
    numbering_fits differ_circuit false /\
    pdr Release no_random brute_stateful 100 s = Ok (Proof inv) /\ cnf_len inv <> 0%N.
Proof.
  split; [exact brute_stateful_sound|]. split; [exact no_random_ok|]. split.
  { intros l [<-|[]] (nx & r & j & Hj & Hv). destruct j as [|[|j]]; [discriminate Hv..|destruct j; discriminate Hj]. }
  destruct (differ_system Release) as (s & E & Hs & Hn).
  vm_compute in E. injection E as <-. do 2 eexists. split; [vm_compute; reflexivity|].
  split; [exact Hs|]. split; [exact Hn|]. split; [vm_compute; reflexivity|]. discriminate.
Qed.

(* ------------------------------------------------------------------------ C42 *)

(** Full claim: for every accepted file.  Proved: under [bad_latches_read].  Without it the
    claim is false in both builds. *)
Theorem C42_pdr_ctx_sound_partial :
  forall c flag s b, system_of b c flag s -> numbering_fits c flag ->
  forall SS, stateful_sound SS -> forall R, random_ok R -> forall fuel d,
  bad_latches_read c flag ->
  pdr b R SS fuel s = Ok (ProofCTX d) ->
  unsafe c flag /\ safe_before c flag (N.to_nat d).
Proof. exact sound_pdr_ctx. Qed.
Print Assumptions C42_pdr_ctx_sound_partial.

(** A counterexample reported for a safe circuit. *)
Theorem C42_pdr_ctx_sound_refuted :
  forall b, exists c flag s d, system_of b c flag s /\ numbering_fits c flag /\
  pdr b no_random brute_stateful 100 s = Ok (ProofCTX d) /\ safe c flag.
Proof. exact false_ctx. Qed.
Print Assumptions C42_pdr_ctx_sound_refuted.

Example C42_case :
  bad_latches_read shift_circuit false /\
  exists s, fsts_of Debug shift_circuit false = Ok s /\ system_of Debug shift_circuit false s /\
    numbering_fits shift_circuit false /\
    pdr Debug no_random brute_stateful 100 s = Ok (ProofCTX 2).
Proof.
  split.
  { intros l [<-|[]] (nx & r & j & Hj & Hv). destruct j as [|[|[|j]]]; [discriminate Hv..|destruct j; discriminate Hj]. }
  destruct (shift_system Debug) as (s & E & Hs & Hn).
  vm_compute in E. injection E as <-. eexists. split; [vm_compute; reflexivity|].
  split; [exact Hs|]. split; [exact Hn|]. vm_compute; reflexivity.
Qed.

(* ------------------------------------------------------------------------ C43 *)

(** Full claim: [prove] returns the right verdict for every accepted file.  Proved: under
    [bad_latches_read], when the states the solver shows can be read back (some bad literal is a
    gate, or all latches have reset values) and counterexample lengths fit into [u32].  A debug
    build panics exactly when one of the five counts in the statistics reaches 2^32. *)
Theorem C43_pdr_terminates_partial :
  forall c flag s b, system_of b c flag s -> numbering_fits c flag ->
  forall SS, stateful_correct SS -> forall R, random_ok R -> forall fuel,
  bad_latches_read c flag -> states_readable c flag -> enough_pdr_fuel c fuel -> depth_fits c flag ->
  exists r n, pdr_run b R SS fuel s = Ok (r, n) /\ (verdict_proof r <-> safe c flag) /\
    pdr b R SS fuel s = counted_answer b (most_calls n) r.
Proof. exact pdr_answers. Qed.
Print Assumptions C43_pdr_terminates_partial.

(** It always stops, perhaps with a panic. *)
Theorem C43_pdr_always_stops :
  forall c flag s b, system_of b c flag s -> numbering_fits c flag ->
  forall SS, stateful_sound SS -> forall R, random_ok R -> forall fuel,
  enough_pdr_fuel c fuel -> pdr b R SS fuel s <> OutOfFuel.
Proof. exact sound_pdr_stops. Qed.
Print Assumptions C43_pdr_always_stops.

(** As for C37. *)
Theorem C43_pdr_any_fuel :
  forall b R SS fuel fuel' s, fuel <= fuel' ->
  (pdr b R SS fuel s <> OutOfFuel -> pdr b R SS fuel' s = pdr b R SS fuel s) /\
  (pdr_twice b R SS fuel s <> OutOfFuel -> pdr_twice b R SS fuel' s = pdr_twice b R SS fuel s).
Proof. exact pdr_any_fuel. Qed.
Print Assumptions C43_pdr_any_fuel.

(** With at most four latches no count of SAT calls overflows (C61), so a debug build answers, too. *)
Theorem C43_pdr_small :
  forall b c flag s R SS fuel,
  system_of b c flag s -> numbering_fits c flag -> random_ok R -> stateful_correct SS ->
  bad_latches_read c flag -> states_readable c flag -> enough_pdr_fuel c fuel -> (lenN (c_latches c) <= 4)%N ->
  exists r, pdr b R SS fuel s = Ok r /\ (verdict_proof r <-> safe c flag).
Proof. exact pdr_small. Qed.
Print Assumptions C43_pdr_small.

(** A debug build panics on a circuit whose bad literal is a latch; IC3 answers. *)
Theorem C43_pdr_bad_latch_refuted :
  exists c flag s, system_of Debug c flag s /\ numbering_fits c flag /\
  pdr Debug no_random brute_stateful 100 s = Panic /\
  exists d, ic3_stateless Debug no_random brute 100 s = Ok (ProofCTX d).
Proof. exact pdr_debug_panics. Qed.
Print Assumptions C43_pdr_bad_latch_refuted.

(** A release build panics when the bad literal is an input and a latch has no reset value. *)
Theorem C43_pdr_bad_input_refuted :
  exists c flag s, system_of Release c flag s /\ numbering_fits c flag /\
  bad_latches_read c flag /\ pdr Release no_random brute_stateful 100 s = Panic /\
  exists d, ic3_stateless Release no_random brute 100 s = Ok (ProofCTX d).
Proof. exact pdr_release_panics. Qed.
Print Assumptions C43_pdr_bad_input_refuted.

(** Even where the other two obstacles are absent, a debug build panics on a 33-bit counter: a count of SAT
    calls overflows. *)
Theorem C43_pdr_counter_refuted :
  exists c s, system_of Debug c false s /\ numbering_fits c false /\ bad_latches_read c false /\
  states_readable c false /\
  forall R SS fuel, random_ok R -> stateful_correct SS ->
  (forall r, pdr Debug R SS fuel s <> Ok r) /\ (enough_pdr_fuel c fuel -> pdr Debug R SS fuel s = Panic).
Proof. exact (ex_intro _ (counter 33) pdr_counter). Qed.
Print Assumptions C43_pdr_counter_refuted.

(** In both builds it panics, for some random choices, where the depth does not fit.  This unsafe circuit counts to
    2^34 - 1 and reports that one clock later.  With these choices the prover needs a frame for every number, and the
    number of frames cannot be converted to [u32]: whatever the solver, it never returns, and given time it panics. *)
Theorem C43_pdr_depth_refuted :
  exists c R, numbering_fits c false /\ bad_latches_read c false /\ states_readable c false /\
  random_ok R /\ ~ safe c false /\
  forall b, exists s, system_of b c false s /\
  forall SS fuel, stateful_correct SS ->
  (forall r, pdr b R SS fuel s <> Ok r) /\
  (enough_pdr_fuel c fuel -> pdr b R SS fuel s = Panic).
Proof. exact pdr_too_deep. Qed.
Print Assumptions C43_pdr_depth_refuted.

(** Latch 2 is a bad literal and gate 4, another one, reads it. *)
Example C43_read_latch_case :
  bad_latches_read read_latch_circuit false /\ states_readable read_latch_circuit false /\
  is_latch read_latch_circuit 2 /\ In 4%N (bad_literals read_latch_circuit false) /\
  exists s, fsts_of Debug read_latch_circuit false = Ok s /\ system_of Debug read_latch_circuit false s /\
    numbering_fits read_latch_circuit false /\
    pdr Debug no_random brute_stateful 100 s = Ok (ProofCTX 2).
Proof.
  split.
  { intros l [<-|[<-|[]]] Hl.
    - exists 4%N, 6%N, 4%N. split; [apply (fan_in_root _ _ 8%N); [right; left; reflexivity|]|].
      + exists 6%N, 4%N, 0. split; reflexivity.
      + split; [exists 0; split; reflexivity|]. split; [discriminate|]. split; [discriminate|]. right. reflexivity.
    - destruct Hl as (nx & r & j & Hj & Hv). destruct j as [|[|j]]; [discriminate Hv..|destruct j; discriminate Hj]. }
  split.
  { right. right. left. exists 8%N. split; [right; left; reflexivity|]. exists 6%N, 4%N, 0. split; reflexivity. }
  split; [exists 6%N, 0%N, 0; split; reflexivity|]. split; [left; reflexivity|].
  system_case Debug read_latch_circuit. eexists. split; [vm_compute; reflexivity|]. split; [exact Hs|].
  split; [exact Hn|]. vm_compute; reflexivity.
Qed.

(** All hypotheses hold of [differ_circuit]. *)
Example C43_case :
  bad_latches_read differ_circuit false /\ states_readable differ_circuit false /\
  enough_pdr_fuel differ_circuit 2500 /\ depth_fits differ_circuit false /\ (lenN (c_latches differ_circuit) <= 4)%N /\
  exists s, fsts_of Debug differ_circuit false = Ok s /\ system_of Debug differ_circuit false s /\
    numbering_fits differ_circuit false /\
    exists inv, pdr_run Debug no_random brute_stateful 2500 s = Ok (Proof inv, mkSatCallStats 3 1 1 1 1) /\
      pdr Debug no_random brute_stateful 2500 s = Ok (Proof inv).
Proof.
  split.
  { intros l [<-|[]] (nx & r & j & Hj & Hv). destruct j as [|[|j]]; [discriminate Hv..|destruct j; discriminate Hj]. }
  split.
  { right. right. left. exists 8%N. split; [left; reflexivity|]. exists 6%N, 4%N, 0. split; reflexivity. }
  split; [apply Nat.ltb_lt; vm_compute; reflexivity|]. split; [apply few_latches_fit; vm_compute; discriminate|].
  split; [vm_compute; discriminate|].
  destruct (differ_system Debug) as (s & E & Hs & Hn).
  vm_compute in E. injection E as <-. eexists. split; [vm_compute; reflexivity|].
  split; [exact Hs|]. split; [exact Hn|]. eexists. split; vm_compute; reflexivity.
Qed.

(* ------------------------------------------------------------------------ C44 *)

(** Full claim: for every accepted file.  Proved: all three provers return and agree under the
    conditions of C37, C40 and C43. *)
Theorem C44_provers_agree_partial :
  forall b c flag s R1 R2 R3 T S2 S3 fuel, system_of b c flag s -> numbering_fits c flag ->
  random_ok R1 -> random_ok R2 -> random_ok R3 ->
  solver_correct_below 2147483647 T -> solver_total_below 2147483647 T -> stateful_correct S2 -> stateful_correct S3 ->
  bad_latches_read c flag -> states_readable c flag -> depth_fits c flag ->
  enough_fuel c fuel -> enough_pdr_fuel c fuel ->
  exists r1 r2 r3 n1 n2 n3,
    ic3_stateless_run b R1 T fuel s = Ok (r1, n1) /\
    ic3_stateless b R1 T fuel s = counted_answer b (N.of_nat n1) r1 /\
    ic3_stateful_run b R2 S2 fuel s = Ok (r2, n2) /\
    ic3_stateful b R2 S2 fuel s = counted_answer b (N.of_nat n2) r2 /\
    pdr_run b R3 S3 fuel s = Ok (r3, n3) /\
    pdr b R3 S3 fuel s = counted_answer b (most_calls n3) r3 /\
    (verdict_proof r1 <-> verdict_proof r2) /\ (verdict_proof r1 <-> verdict_proof r3).
Proof. exact answers_agree. Qed.
Print Assumptions C44_provers_agree_partial.

(** With at most four latches all of them answer in debug builds, too. *)
Theorem C44_provers_agree_small :
  forall b c flag s R1 R2 R3 T S2 S3 fuel, system_of b c flag s -> numbering_fits c flag ->
  random_ok R1 -> random_ok R2 -> random_ok R3 ->
  solver_correct_below 2147483647 T -> solver_total_below 2147483647 T -> stateful_correct S2 -> stateful_correct S3 ->
  bad_latches_read c flag -> states_readable c flag -> enough_fuel c fuel -> enough_pdr_fuel c fuel ->
  (lenN (c_latches c) <= 4)%N ->
  exists r1 r2 r3, ic3_stateless b R1 T fuel s = Ok r1 /\ ic3_stateful b R2 S2 fuel s = Ok r2 /\
    pdr b R3 S3 fuel s = Ok r3 /\ (verdict_proof r1 <-> verdict_proof r2) /\ (verdict_proof r1 <-> verdict_proof r3).
Proof. exact small_agree. Qed.
Print Assumptions C44_provers_agree_small.

(** The two IC3 variants agree whenever both return. *)
Theorem C44_ic3_variants_agree :
  forall b c flag s R1 R2 T SS fuel1 fuel2 r1 r2, system_of b c flag s -> numbering_fits c flag ->
  random_ok R1 -> random_ok R2 -> solver_sound_below 2147483647 T -> stateful_sound SS ->
  ic3_stateless b R1 T fuel1 s = Ok r1 -> ic3_stateful b R2 SS fuel2 s = Ok r2 ->
  (verdict_proof r1 <-> verdict_proof r2).
Proof. exact sound_agree. Qed.
Print Assumptions C44_ic3_variants_agree.

(** PDR agrees with them whenever it returns, under [bad_latches_read]. *)
Theorem C44_pdr_agrees_partial :
  forall b c flag s R1 R2 T SS fuel1 fuel2 r1 r2, system_of b c flag s -> numbering_fits c flag ->
  random_ok R1 -> random_ok R2 -> solver_sound_below 2147483647 T -> stateful_sound SS ->
  bad_latches_read c flag ->
  ic3_stateless b R1 T fuel1 s = Ok r1 -> pdr b R2 SS fuel2 s = Ok r2 ->
  (verdict_proof r1 <-> verdict_proof r2).
Proof. exact sound_pdr_agree. Qed.
Print Assumptions C44_pdr_agrees_partial.

(** BMC finds a counterexample for some limit iff IC3 reports one, unless all counterexamples
    are out of reach of BMC's variable numbering. *)
Theorem C44_bmc_agrees_partial :
  forall m b c flag s R T1 T2 clk fuel r, system_of b c flag s -> numbering_fits c flag ->
  random_ok R -> solver_sound_below 2147483647 T1 -> solver_correct_below m T2 -> never_times_out clk ->
  bmc_reaches m c flag ->
  ic3_stateless b R T1 fuel s = Ok r ->
  ((exists d, r = ProofCTX d) <->
   exists limit asg d, bmc_range m c limit /\ bmc_search b T2 clk s limit = Ok (CTX asg d)).
Proof. exact bmc_sound_verdict. Qed.
Print Assumptions C44_bmc_agrees_partial.

(** Without the conditions PDR and IC3 disagree. *)
Theorem C44_provers_agree_refuted :
  forall b, exists c flag s d inv, system_of b c flag s /\ numbering_fits c flag /\
  pdr b no_random brute_stateful 100 s = Ok (ProofCTX d) /\
  ic3_stateless b no_random brute 100 s = Ok (Proof inv).
Proof. exact provers_disagree. Qed.
Print Assumptions C44_provers_agree_refuted.

(** All hypotheses hold of [late_circuit]. *)
Example C44_case :
  random_ok no_random /\ solver_correct brute /\ solver_total brute /\
  solver_sound_below 2147483647 brute /\ stateful_correct brute_stateful /\ stateful_sound brute_stateful /\
  bad_latches_read late_circuit false /\ states_readable late_circuit false /\ depth_fits late_circuit false /\
  enough_fuel late_circuit (Nat.pow 2 14) /\ enough_pdr_fuel late_circuit (Nat.pow 2 14) /\
  (lenN (c_latches late_circuit) <= 4)%N /\ bmc_range 2147483648 late_circuit 7 /\ bmc_reaches 2147483648 late_circuit false /\
  exists s, fsts_of Debug late_circuit false = Ok s /\ system_of Debug late_circuit false s /\
    numbering_fits late_circuit false /\
    exists asg, bmc_search Debug brute (mkClock (fun _ => false) (fun _ => false)) s 7 = Ok (CTX asg 3).
Proof.
  split; [exact no_random_ok|]. split; [exact brute_correct|]. split; [exact brute_total|].
  split; [apply correct_sound, correct_below, brute_correct|].
  split; [exact brute_stateful_correct|]. split; [exact brute_stateful_sound|]. split; [exact late_latches_read|]. split; [exact late_readable|].
  split; [apply few_latches_fit; vm_compute; discriminate|]. split; [apply Nat.ltb_lt; vm_compute; reflexivity|].
  split; [apply Nat.ltb_lt; vm_compute; reflexivity|]. split; [vm_compute; discriminate|].
  split; [vm_compute; repeat split; congruence|]. split; [exact late_reaches|].
  system_case Debug late_circuit. eexists. split; [vm_compute; reflexivity|]. split; [exact Hs|].
  split; [exact Hn|]. eexists. vm_compute. reflexivity.
Qed.

(* ------------------------------------------------------------------------ C45 *)

(** Full claim: the reported depth is the length of a shortest counterexample.  Proved: it is
    not more than that. *)
Theorem C45_depth_lower_bound_partial :
  forall b c flag s R1 R2 R3 T S2 S3 fuel, system_of b c flag s -> numbering_fits c flag ->
  random_ok R1 -> random_ok R2 -> random_ok R3 ->
  solver_sound_below 2147483647 T -> stateful_sound S2 -> stateful_sound S3 ->
  forall d w t, run c w -> is_bad c flag (w t) ->
  ic3_stateless b R1 T fuel s = Ok (ProofCTX d) \/ ic3_stateful b R2 S2 fuel s = Ok (ProofCTX d) \/
  (b = Debug \/ bad_latches_read c flag) /\ pdr b R3 S3 fuel s = Ok (ProofCTX d) ->
  (d <= N.of_nat t)%N.
Proof. exact sound_depth_lower. Qed.
Print Assumptions C45_depth_lower_bound_partial.

(** The shortest counterexample has three steps; IC3 reports one, PDR two. *)
Theorem C45_depth_exact_refuted :
  forall b, exists c flag s asg, system_of b c flag s /\ numbering_fits c flag /\
  bad_latches_read c flag /\ states_readable c flag /\
  bmc_search b brute (mkClock (fun _ => false) (fun _ => false)) s 7 = Ok (CTX asg 3) /\
  ic3_stateless b no_random brute 100 s = Ok (ProofCTX 1) /\
  ic3_stateful b no_random brute_stateful 100 s = Ok (ProofCTX 1) /\
  pdr b no_random brute_stateful 100 s = Ok (ProofCTX 2).
Proof. exact depth_not_length. Qed.
Print Assumptions C45_depth_exact_refuted.

(** IC3's depth is right if a counterexample of at most one step exists, and otherwise always
    too small ... *)
Theorem C45_ic3_depth :
  forall b c flag s R1 R2 T SS fuel, system_of b c flag s -> numbering_fits c flag ->
  random_ok R1 -> random_ok R2 -> solver_sound_below 2147483647 T -> stateful_sound SS ->
  forall d n, shortest c flag n ->
  ic3_stateless b R1 T fuel s = Ok (ProofCTX d) \/ ic3_stateful b R2 SS fuel s = Ok (ProofCTX d) ->
  (n <= 1 -> d = N.of_nat n) /\ (1 < n -> (1 <= d < N.of_nat n)%N).
Proof. exact sound_ic3_depth. Qed.
Print Assumptions C45_ic3_depth.

(** ... and PDR's is also right for these, and otherwise not too large. *)
Theorem C45_pdr_depth_partial :
  forall b c flag s R SS fuel, system_of b c flag s -> numbering_fits c flag ->
  random_ok R -> stateful_sound SS -> bad_latches_read c flag ->
  forall d n, shortest c flag n -> pdr b R SS fuel s = Ok (ProofCTX d) ->
  (n <= 1 -> d = N.of_nat n) /\ (1 < n -> (1 <= d <= N.of_nat n)%N).
Proof. exact sound_pdr_depth. Qed.
Print Assumptions C45_pdr_depth_partial.

(** PDR meets the bound on [shift_circuit], IC3 does not. *)
Example C45_case :
  shortest shift_circuit false 2 /\ bad_latches_read shift_circuit false /\
  exists s, fsts_of Debug shift_circuit false = Ok s /\ system_of Debug shift_circuit false s /\
    numbering_fits shift_circuit false /\
    pdr Debug no_random brute_stateful 100 s = Ok (ProofCTX 2) /\
    ic3_stateless Debug no_random brute 100 s = Ok (ProofCTX 1) /\
    ic3_stateful Debug no_random brute_stateful 100 s = Ok (ProofCTX 1) /\
    exists asg, bmc_search Debug brute (mkClock (fun _ => false) (fun _ => false)) s 7 = Ok (CTX asg 2).
Proof.
  split; [exact shift_shortest|]. split; [exact shift_latches_read|].
  destruct (shift_system Debug) as (s & E & Hs & Hn).
  vm_compute in E. injection E as <-. eexists. split; [vm_compute; reflexivity|].
  split; [exact Hs|]. split; [exact Hn|]. do 3 (split; [vm_compute; reflexivity|]). eexists. vm_compute; reflexivity.
Qed.

(* ------------------------------------------------------------------------ C46 *)

(** Full claim: a second call of [prove] returns, with the same verdict.  Proved for IC3 in
    release builds, and in debug builds if a counterexample of at most one step exists. *)
Theorem C46_stateless_again_partial :
  forall b c flag s R T fuel, system_of b c flag s -> numbering_fits c flag ->
  random_ok R -> solver_correct_below 2147483647 T -> solver_total_below 2147483647 T -> b = Release \/ ~ safe_before c flag 2 ->
  both_right c flag fuel (ic3_stateless_twice b R T fuel s).
Proof. exact stateless_twice_both. Qed.
Print Assumptions C46_stateless_again_partial.

Theorem C46_stateful_again_partial :
  forall b c flag s R SS fuel, system_of b c flag s -> numbering_fits c flag ->
  random_ok R -> stateful_correct SS -> b = Release \/ ~ safe_before c flag 2 ->
  both_right c flag fuel (ic3_stateful_twice b R SS fuel s).
Proof. exact stateful_twice_both. Qed.
Print Assumptions C46_stateful_again_partial.

(** In both builds, whenever two calls return, both verdicts are right; the solver may also panic. *)
Theorem C46_stateless_two_answers :
  forall b c flag s R T fuel r1 r2, system_of b c flag s -> numbering_fits c flag ->
  random_ok R -> solver_sound_below 2147483647 T ->
  ic3_stateless_twice b R T fuel s = Ok (r1, r2) -> forall r, r = r1 \/ r = r2 ->
  (verdict_proof r <-> safe c flag) /\ forall d, r = ProofCTX d -> safe_before c flag (N.to_nat d).
Proof. exact stateless_sound_twice. Qed.
Print Assumptions C46_stateless_two_answers.

Theorem C46_stateful_two_answers :
  forall b c flag s R SS fuel r1 r2, system_of b c flag s -> numbering_fits c flag ->
  random_ok R -> stateful_sound SS ->
  ic3_stateful_twice b R SS fuel s = Ok (r1, r2) -> forall r, r = r1 \/ r = r2 ->
  (verdict_proof r <-> safe c flag) /\ forall d, r = ProofCTX d -> safe_before c flag (N.to_nat d).
Proof. exact stateful_sound_twice. Qed.
Print Assumptions C46_stateful_two_answers.

(** In a debug build every other second call of IC3 panics. *)
Theorem C46_stateless_second_call_panics :
  forall b c flag s R T fuel r, system_of b c flag s -> numbering_fits c flag ->
  random_ok R -> solver_sound_below 2147483647 T -> b = Debug -> safe_before c flag 2 ->
  ic3_stateless b R T fuel s = Ok r -> ic3_stateless_twice b R T fuel s = Panic.
Proof. exact stateless_sound_twice_panics. Qed.
Print Assumptions C46_stateless_second_call_panics.

Theorem C46_stateful_second_call_panics :
  forall b c flag s R SS fuel r, system_of b c flag s -> numbering_fits c flag ->
  random_ok R -> stateful_sound SS -> b = Debug -> safe_before c flag 2 ->
  ic3_stateful b R SS fuel s = Ok r -> ic3_stateful_twice b R SS fuel s = Panic.
Proof. exact sound_twice_panics. Qed.
Print Assumptions C46_stateful_second_call_panics.

(** Every second call of PDR panics. *)
Theorem C46_pdr_second_call_panics :
  forall c flag s b, system_of b c flag s -> numbering_fits c flag ->
  forall SS, stateful_sound SS -> forall R fuel r,
  pdr b R SS fuel s = Ok r -> pdr_twice b R SS fuel s = Panic.
Proof. exact sound_pdr_second_panics. Qed.
Print Assumptions C46_pdr_second_call_panics.

(** No hypothesis at all: whatever the solver, a second call of PDR does not return. *)
Theorem C46_pdr_never_returns_twice :
  forall b R SS s fuel r, pdr_twice b R SS fuel s <> Ok r.
Proof. exact pdr_not_twice. Qed.
Print Assumptions C46_pdr_never_returns_twice.

Theorem C46_prove_again_refuted :
  exists c flag s inv, system_of Debug c flag s /\ numbering_fits c flag /\
  bad_latches_read c flag /\ states_readable c flag /\
  ic3_stateless Debug no_random brute 100 s = Ok (Proof inv) /\
  ic3_stateless_twice Debug no_random brute 100 s = Panic /\
  ic3_stateful_twice Debug no_random brute_stateful 100 s = Panic /\
  pdr_twice Debug no_random brute_stateful 100 s = Panic.
Proof. exact no_second_call. Qed.
Print Assumptions C46_prove_again_refuted.

(** Release: the same verdict, not the same depth; PDR panics. *)
Example C46_case :
  exists s, fsts_of Release late_circuit false = Ok s /\ system_of Release late_circuit false s /\
    numbering_fits late_circuit false /\ enough_fuel late_circuit 100 /\ depth_fits late_circuit false /\
    ic3_stateless_twice Release no_random brute 100 s = Ok (ProofCTX 1, ProofCTX 2) /\
    ic3_stateful_twice Release no_random brute_stateful 100 s = Ok (ProofCTX 1, ProofCTX 2) /\
    pdr_twice Release no_random brute_stateful 100 s = Panic.
Proof.
  system_case Release late_circuit. eexists. split; [vm_compute; reflexivity|]. split; [exact Hs|].
  split; [exact Hn|]. split; [apply Nat.ltb_lt; vm_compute; reflexivity|]. split; [apply few_latches_fit; vm_compute; discriminate|].
  split; [vm_compute; reflexivity|]. split; vm_compute; reflexivity.
Qed.
