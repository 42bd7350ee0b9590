(** Properties C62 to C65: the invariants in the results of the provers, and formulas accepted as invariants. *)
From Verif Require Import Base Formulas FormulaLogic Aig AigParse Fsts Bmc Solvers Ic3 Pdr Brute Spec SpecText
  SpecAig SpecAiger SpecFsts SpecAlg SpecInv Tac BruteFacts AigThms FstsThms BmcThms Ic3Thms PdrThms ProverThms TwiceThms LogicFacts
  SoundThms InvThms InvComb.
Open Scope nat_scope.

(* ------------------------------------------------------------------------ C62 *)

(** The invariant names variables of the circuit only, none of the next state.  It consists of clauses about latches,
    the clauses for the gates below the bad literals and the negated bad literals.  Every system built from the same
    circuit accepts it, whatever the build and the hash order. *)
Theorem C62_stateless_invariant :
  forall b c flag s R T fuel inv, system_of b c flag s -> numbering_fits c flag ->
  random_ok R -> solver_sound_below 2147483647 T ->
  ic3_stateless b R T fuel s = Ok (Proof inv) ->
  api_cnf inv /\ cnf_vars (fun v => 1 <= v <= c_max c)%N inv /\ clauses_of_invariant c flag s inv /\
  state_and_not_bad c flag inv /\
  forall b' s', system_of b' c flag s' -> accepted_for s' inv.
Proof. exact stateless_invariant. Qed.
Print Assumptions C62_stateless_invariant.

Theorem C62_stateful_invariant :
  forall b c flag s R SS fuel inv, system_of b c flag s -> numbering_fits c flag ->
  random_ok R -> stateful_sound SS ->
  ic3_stateful b R SS fuel s = Ok (Proof inv) ->
  api_cnf inv /\ cnf_vars (fun v => 1 <= v <= c_max c)%N inv /\ clauses_of_invariant c flag s inv /\
  state_and_not_bad c flag inv /\
  forall b' s', system_of b' c flag s' -> accepted_for s' inv.
Proof. exact stateful_invariant. Qed.
Print Assumptions C62_stateful_invariant.

(** The invariant of PDR is about latches only.  It is accepted where PDR's proofs are right (C41). *)
Theorem C62_pdr_invariant :
  forall b c flag s R SS fuel inv, system_of b c flag s -> numbering_fits c flag ->
  random_ok R -> stateful_sound SS ->
  pdr b R SS fuel s = Ok (Proof inv) ->
  api_cnf inv /\ cnf_vars (is_latch c) inv /\
  (b = Debug \/ bad_latches_read c flag -> forall b' s', system_of b' c flag s' -> accepted_for s' inv).
Proof. exact pdr_invariant. Qed.
Print Assumptions C62_pdr_invariant.

(** Gate 4 is the bad literal.  The invariant of IC3 has its three clauses, its negation and a clause that keeps latch 2
    at 0.  The one of PDR has clauses about latches. *)
Example C62_case :
  exists s inv1 inv2 inv3, fsts_of Debug follow_circuit false = Ok s /\ system_of Debug follow_circuit false s /\
    numbering_fits follow_circuit false /\
    ic3_stateless Debug no_random brute 20 s = Ok (Proof inv1) /\
    ic3_stateful Debug no_random brute_stateful 20 s = Ok (Proof inv2) /\
    pdr Debug no_random brute_stateful 20 s = Ok (Proof inv3) /\
    In (clause_new [9%N]) (cnf_clauses inv1) /\ In (clause_new [5%N]) (cnf_clauses inv1) /\
    (cnf_len inv1, cnf_len inv2, cnf_len inv3) = (5%N, 5%N, 2%N) /\
    check_invariant Release brute brute brute (fun l => l) (fun l => l) s inv3 = Ok tt.
Proof.
  destruct (follow_system Debug) as (s & E & Hs & Hn).
  vm_compute in E. injection E as <-. do 4 eexists. split; [vm_compute; reflexivity|].
  split; [exact Hs|]. split; [exact Hn|]. do 3 (split; [vm_compute; reflexivity|]).
  do 2 (split; [vm_compute; tauto|]). split; vm_compute; reflexivity.
Qed.

(* ------------------------------------------------------------------------ C63 *)

(** Full claim: an invariant proved with [assume_output_is_bad] is accepted for the system built without it.  Proved
    for PDR where its proofs are right (C41). *)
Theorem C63_pdr_carries_over_partial :
  forall b c s R SS fuel inv b' s', system_of b c true s -> numbering_fits c true ->
  random_ok R -> stateful_sound SS -> b = Debug \/ bad_latches_read c true ->
  pdr b R SS fuel s = Ok (Proof inv) ->
  system_of b' c false s' -> inductive_safe c false (fun w => cnf_true w inv) /\ accepted_for s' inv.
Proof. exact pdr_carries_over. Qed.
Print Assumptions C63_pdr_carries_over_partial.

(** For IC3: the invariant is inductive for the other system in any case.  It is accepted exactly when every gate below an
    output is also below a bad literal. *)
Theorem C63_stateless_carries_over_partial :
  forall b c s R T fuel inv b' s', system_of b c true s -> numbering_fits c true ->
  random_ok R -> solver_sound_below 2147483647 T -> ic3_stateless b R T fuel s = Ok (Proof inv) ->
  system_of b' c false s' -> inductive_safe c false (fun w => cnf_true w inv) /\
  (accepted_for s' inv <-> forall v, fan_in c (bad_literals c true) v -> fan_in c (bad_literals c false) v).
Proof. exact stateless_carries_over. Qed.
Print Assumptions C63_stateless_carries_over_partial.

Theorem C63_stateful_carries_over_partial :
  forall b c s R SS fuel inv b' s', system_of b c true s -> numbering_fits c true ->
  random_ok R -> stateful_sound SS -> ic3_stateful b R SS fuel s = Ok (Proof inv) ->
  system_of b' c false s' -> inductive_safe c false (fun w => cnf_true w inv) /\
  (accepted_for s' inv <-> forall v, fan_in c (bad_literals c true) v -> fan_in c (bad_literals c false) v).
Proof. exact stateful_carries_over. Qed.
Print Assumptions C63_stateful_carries_over_partial.

(** For IC3 the full claim is false: the invariant has clauses for the gates below the outputs, which the other system does not
    know. *)
Theorem C63_ic3_carries_over_refuted :
  exists c s s' inv, system_of Debug c true s /\ numbering_fits c true /\ system_of Debug c false s' /\
  ic3_stateless Debug no_random brute 100 s = Ok (Proof inv) /\
  check_invariant Debug brute brute brute (fun l => l) (fun l => l) s' inv = Panic.
Proof. exact ic3_not_carried_over. Qed.
Print Assumptions C63_ic3_carries_over_refuted.

Example C63_case :
  exists s s' inv, fsts_of Debug outputs_circuit true = Ok s /\ fsts_of Debug outputs_circuit false = Ok s' /\
    system_of Debug outputs_circuit true s /\ numbering_fits outputs_circuit true /\
    system_of Debug outputs_circuit false s' /\
    pdr Debug no_random brute_stateful 100 s = Ok (Proof inv) /\ cnf_len inv <> 0%N /\
    check_invariant Debug brute brute brute (fun l => l) (fun l => l) s' inv = Ok tt.
Proof.
  destruct (outputs_system Debug true) as (s & E & Hs & Hn). destruct (outputs_system Debug false) as (s' & E' & Hs' & _).
  vm_compute in E, E'. injection E as <-. injection E' as <-. do 3 eexists. do 2 (split; [vm_compute; reflexivity|]).
  split; [exact Hs|]. split; [exact Hn|]. split; [exact Hs'|]. split; [vm_compute; reflexivity|].
  split; [vm_compute; discriminate|vm_compute; reflexivity].
Qed.

(* ------------------------------------------------------------------------ C64 *)

(** Whether a formula is accepted depends on the circuit only. *)
Theorem C64_accepted_everywhere :
  forall b c flag s inv b' s', system_of b c flag s -> numbering_fits c flag ->
  candidate_fits c inv -> accepted_once s inv -> system_of b' c flag s' -> accepted_for s' inv.
Proof. exact accepted_everywhere. Qed.
Print Assumptions C64_accepted_everywhere.

(** Two accepted formulas can be put together with [append]. *)
Theorem C64_append :
  forall b1 b2 b c flag s1 s2 s f g, numbering_fits c flag ->
  system_of b1 c flag s1 -> candidate_fits c f -> accepted_once s1 f ->
  system_of b2 c flag s2 -> candidate_fits c g -> accepted_once s2 g ->
  system_of b c flag s -> accepted_for s (cnf_append f g).
Proof. exact accepted_append. Qed.
Print Assumptions C64_append.

(** A formula about latches that is accepted where outputs are bad is accepted where they are not. *)
Theorem C64_without_outputs :
  forall b c s inv b' s', system_of b c true s -> numbering_fits c true ->
  api_cnf inv -> cnf_vars (is_latch c) inv -> accepted_once s inv ->
  system_of b' c false s' -> accepted_for s' inv.
Proof. exact accepted_without_outputs. Qed.
Print Assumptions C64_without_outputs.

(** No search contradicts an accepted formula. *)
Theorem C64_no_bmc_counterexample :
  forall b c flag s inv, system_of b c flag s -> numbering_fits c flag -> candidate_fits c inv ->
  accepted_once s inv ->
  forall m b' s' T clk limit asg d, system_of b' c flag s' -> solver_sound_below m T -> (limit < 4294967296)%N ->
  b' = Debug /\ m = 2147483648%N \/ ((limit + 1) * c_max c < m <= 2147483648)%N ->
  bmc_search b' T clk s' limit <> Ok (CTX asg d).
Proof. exact accepted_bmc. Qed.
Print Assumptions C64_no_bmc_counterexample.

Theorem C64_no_prover_counterexample :
  forall b c flag s inv, system_of b c flag s -> numbering_fits c flag -> candidate_fits c inv ->
  accepted_once s inv ->
  forall b' s' R T SS fuel d, system_of b' c flag s' -> random_ok R ->
  solver_sound_below 2147483647 T -> stateful_sound SS ->
  ic3_stateless b' R T fuel s' <> Ok (ProofCTX d) /\ ic3_stateful b' R SS fuel s' <> Ok (ProofCTX d) /\
  (bad_latches_read c flag -> pdr b' R SS fuel s' <> Ok (ProofCTX d)).
Proof. exact accepted_provers. Qed.
Print Assumptions C64_no_prover_counterexample.

(** The invariant of IC3 and a formula that says that both latches are 0, alone and together. *)
Example C64_case :
  exists s inv, fsts_of Debug follow_circuit false = Ok s /\ system_of Debug follow_circuit false s /\
    numbering_fits follow_circuit false /\ solver_sound_below 2147483647 brute /\ bad_latches_read follow_circuit false /\
    ic3_stateless Debug no_random brute 20 s = Ok (Proof inv) /\ candidate_fits follow_circuit inv /\
    candidate_fits follow_circuit (run_history (H_add (H_add H_new [5]) [7]))%N /\
    check_invariant Debug brute brute brute (fun l => l) (fun l => l) s inv = Ok tt /\
    check_invariant Debug brute brute brute (fun l => l) (fun l => l) s (run_history (H_add (H_add H_new [5]) [7]))%N = Ok tt /\
    check_invariant Release brute brute brute (fun l => l) (fun l => l) s
      (cnf_append inv (run_history (H_add (H_add H_new [5]) [7])))%N = Ok tt.
Proof.
  destruct (follow_system Debug) as (s & E & Hs & Hn).
  assert (HB : solver_sound_below 2147483647 brute) by (apply correct_sound, correct_below, brute_correct).
  assert (E1 : exists inv, ic3_stateless Debug no_random brute 20 s = Ok (Proof inv) /\
    check_invariant Debug brute brute brute (fun l => l) (fun l => l) s inv = Ok tt /\
    check_invariant Debug brute brute brute (fun l => l) (fun l => l) s (run_history (H_add (H_add H_new [5]) [7]))%N = Ok tt /\
    check_invariant Release brute brute brute (fun l => l) (fun l => l) s
      (cnf_append inv (run_history (H_add (H_add H_new [5]) [7])))%N = Ok tt).
  { vm_compute in E. injection E as <-. eexists. split; [vm_compute; reflexivity|].
    split; [vm_compute; reflexivity|]. split; [vm_compute; reflexivity|]. vm_compute. reflexivity. }
  destruct E1 as (inv & E1 & E2 & E3 & E4). exists s, inv. split; [exact E|]. split; [exact Hs|]. split; [exact Hn|].
  split; [exact HB|]. split; [exact follow_read|]. split; [exact E1|]. split.
  { destruct (stateless_invariant Debug follow_circuit false s no_random brute 20 inv Hs Hn no_random_ok HB E1) as (A & V & _).
    exact (latch_candidate follow_circuit false _ Hn A V). }
  split; [split; [eexists; reflexivity|]; intros d [<-|[<-|[]]] l [<-|[]]; split; [discriminate|reflexivity|discriminate|reflexivity]|].
  split; [exact E2|]. split; [exact E3|exact E4].
Qed.

(* ------------------------------------------------------------------- C31, continued *)

(** What is accepted is inductive, not only true on all runs. *)
Theorem C31_accepted_inductive :
  forall b c flag s inv, system_of b c flag s -> numbering_fits c flag ->
  api_cnf inv -> cnf_vars (fun v => 1 <= v <= c_max c)%N inv -> accepted_once s inv ->
  inductive_safe c flag (fun w => cnf_true w inv).
Proof. exact accepted_inductive. Qed.
Print Assumptions C31_accepted_inductive.

(** Over latches exactly the inductive safe formulas are accepted; one solver or another makes no difference. *)
Theorem C31_latch_exact :
  forall b c flag s inv, system_of b c flag s -> numbering_fits c flag ->
  api_cnf inv -> cnf_vars (is_latch c) inv ->
  (accepted_once s inv <-> inductive_safe c flag (fun w => cnf_true w inv)) /\
  (accepted_for s inv <-> inductive_safe c flag (fun w => cnf_true w inv)).
Proof. exact latch_exact. Qed.
Print Assumptions C31_latch_exact.

(* ------------------------------------------------------------------------ C65 *)

(** A circuit is safe if and only if some formula about its latches is accepted. *)
Theorem C65_safe_iff_certificate :
  forall b c flag s, system_of b c flag s -> numbering_fits c flag ->
  (safe c flag <-> exists inv, api_cnf inv /\ cnf_vars (is_latch c) inv /\ accepted_for s inv).
Proof. exact safe_has_invariant. Qed.
Print Assumptions C65_safe_iff_certificate.

(** Both directions occur: [follow_circuit] is safe, [shift_circuit] is not.  For the former the formula that both
    latches are 0 is accepted; that only the second one is, is not, although it is true of all reachable states. *)
Example C65_case :
  safe follow_circuit false /\ unsafe shift_circuit false /\
  exists s s', fsts_of Debug follow_circuit false = Ok s /\ system_of Debug follow_circuit false s /\
    numbering_fits follow_circuit false /\
    fsts_of Debug shift_circuit false = Ok s' /\ system_of Debug shift_circuit false s' /\
    numbering_fits shift_circuit false /\
    check_invariant Debug brute brute brute (fun l => l) (fun l => l) s (run_history (H_add (H_add H_new [5]) [7]))%N = Ok tt /\
    check_invariant Debug brute brute brute (fun l => l) (fun l => l) s (run_history (H_add H_new [7]))%N = Panic.
Proof.
  split; [exact follow_safe|]. split; [exact shift_unsafe|].
  destruct (follow_system Debug) as (s & E & Hs & Hn). destruct (shift_system Debug) as (s' & E' & Hs' & Hn').
  exists s, s'. split; [exact E|]. split; [exact Hs|]. split; [exact Hn|]. split; [exact E'|].
  split; [exact Hs'|]. split; [exact Hn'|]. vm_compute in E. injection E as <-. split; vm_compute; reflexivity.
Qed.
