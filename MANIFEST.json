{
 "claims": [
  {
   "property": "C01",
   "status": "proved",
   "theorems": [
    "C01_literal_code",
    "C01_literal_roundtrip",
    "C01_literal_negation",
    "C01_literal_equal",
    "C01_literal_debug_rejects",
    "C01_literal_release_alias"
   ],
   "note": "all u32 codes, both builds"
  },
  {
   "property": "C02",
   "status": "proved",
   "theorems": [
    "C02_clause_equality",
    "C02_cube_equality",
    "C02_clause_observers",
    "C02_cube_observers",
    "C02_clause_highest"
   ],
   "note": ""
  },
  {
   "property": "C03",
   "status": "proved",
   "theorems": [
    "C03_clause_negation",
    "C03_cube_negation",
    "C03_clause_double_negation",
    "C03_cube_double_negation"
   ],
   "note": ""
  },
  {
   "property": "C04",
   "status": "proved",
   "theorems": [
    "C04_contains",
    "C04_len",
    "C04_max_variable",
    "C04_equality",
    "C04_is_empty"
   ],
   "note": ""
  },
  {
   "property": "C05",
   "status": "proved",
   "theorems": [
    "C05_clause_to_cnf",
    "C05_cube_to_cnf",
    "C05_append_is_and"
   ],
   "note": ""
  },
  {
   "property": "C06",
   "status": "proved",
   "theorems": [
    "C06_display_order_independent",
    "C06_display_readable",
    "C06_display_injective"
   ],
   "note": "reader specification in SpecText.v; legal CNFs (variables 1..2^31-1)"
  },
  {
   "property": "C07",
   "status": "proved",
   "theorems": [
    "C07_assignment",
    "C07_assignment_rejects"
   ],
   "note": ""
  },
  {
   "property": "C08",
   "status": "proved",
   "theorems": [
    "C08_evaluate_total",
    "C08_evaluate_clause_total",
    "C08_evaluate_literal_total",
    "C08_evaluate_partial_assignment"
   ],
   "note": "for every hash order and every partial assignment"
  },
  {
   "property": "C09",
   "status": "proved",
   "theorems": [
    "C09_does_a_imply_b",
    "C09_does_a_imply_b_sound"
   ],
   "note": "the answers are right also with a solver that may panic"
  },
  {
   "property": "C10",
   "status": "proved",
   "theorems": [
    "C10_is_a_and_b_satisfiable",
    "C10_is_a_and_b_satisfiable_sound"
   ],
   "note": "the answers are right also with a solver that may panic"
  },
  {
   "property": "C11",
   "status": "partial",
   "theorems": [
    "C11_cadical_partial",
    "C11_cadical_refuted",
    "C11_cadical_debug_sound",
    "C11_splr",
    "C11_varisat"
   ],
   "note": "Splr and Varisat: the full statement. CaDiCaL: proved for formulas without the variable 2^31-1; for that variable the adapter computes max_variable()+1 in i32, so a debug build panics and a release build returns an assignment that does not satisfy the formula, for every correct engine (refuted)."
  },
  {
   "property": "C12",
   "status": "proved",
   "theorems": [
    "C12_minisat_stateful"
   ],
   "note": "every history of add_cnf and solve calls with legal arguments"
  },
  {
   "property": "C13",
   "status": "partial",
   "theorems": [
    "C13_cadical_stateful_partial",
    "C13_cadical_stateful_variable_refuted",
    "C13_cadical_stateful_history_refuted",
    "C13_cadical_stateful_debug_sound"
   ],
   "note": "Proved for all histories in which largest variable + number of temporary clauses stays at most 2^31-3; the adapter's i32 counter new_literal overflows beyond that, and the bound is exact: debug builds panic for a formula with variable 2^31-2 and after 2^31-4 temporary clauses over one variable (refuted). Models are defined on all variables if the engine gives values to the variables it has seen (cadical_values). In a debug build every answer given is right for every history (C13_cadical_stateful_debug_sound)."
  },
  {
   "property": "C14",
   "status": "proved",
   "theorems": [
    "C14_delta_roundtrip",
    "C14_delta_too_long",
    "C14_delta_truncated",
    "C14_delta_sound"
   ],
   "note": ""
  },
  {
   "property": "C15",
   "status": "proved",
   "theorems": [
    "C15_parse_inverts_encode"
   ],
   "note": ""
  },
  {
   "property": "C16",
   "status": "proved",
   "theorems": [
    "C16_accepted_well_formed"
   ],
   "note": ""
  },
  {
   "property": "C17",
   "status": "proved",
   "theorems": [
    "C17_export_faithful"
   ],
   "note": ""
  },
  {
   "property": "C18",
   "status": "partial",
   "theorems": [
    "C18_symbols_survive_refuted",
    "C18_symbols_survive_partial"
   ],
   "note": "refuted when two positions of the file share a node, because symbols are stored per node and the later name replaces the earlier one; proved when no two named positions share a node"
  },
  {
   "property": "C19",
   "status": "proved",
   "theorems": [
    "C19_cone_exact"
   ],
   "note": ""
  },
  {
   "property": "C20",
   "status": "proved",
   "theorems": [
    "C20_simulation_correct"
   ],
   "note": ""
  },
  {
   "property": "C21",
   "status": "partial",
   "theorems": [
    "C21_simulation_total_refuted",
    "C21_simulation_total_partial",
    "C21_simulation_accepts_exactly"
   ],
   "note": "refuted: the pre-check compares a reset literal with a latch index; proved under the missing condition, and the accepted stimuli are characterised exactly"
  },
  {
   "property": "C22",
   "status": "proved",
   "theorems": [
    "C22_initial_relation_exact"
   ],
   "note": "every system built by from_aig, in both builds"
  },
  {
   "property": "C23",
   "status": "proved",
   "theorems": [
    "C23_transition_sound",
    "C23_transition_complete"
   ],
   "note": "release builds: next-state numbers must fit into 31 bits (next_fits; otherwise refuted in C25_release_misnumbers_refuted); a debug build checks this"
  },
  {
   "property": "C24",
   "status": "proved",
   "theorems": [
    "C24_safety_formulas_exact"
   ],
   "note": "release builds: bad literals must not be constants (bad_fits; otherwise see C25, C51); a debug build checks this"
  },
  {
   "property": "C25",
   "status": "partial",
   "theorems": [
    "C25_from_aig_total_partial",
    "C25_from_aig_debug_exact",
    "C25_from_aig_release_exact",
    "C25_from_aig_total_refuted",
    "C25_release_misnumbers_refuted"
   ],
   "note": "refuted: constant bad literals panic in debug and are mis-numbered in release; next-state numbers beyond 31 bits are silently truncated in release; acceptance is characterised exactly in both builds, correctness proved when the numbering fits"
  },
  {
   "property": "C26",
   "status": "proved",
   "theorems": [
    "C26_tagging_relation",
    "C26_tagging_clause",
    "C26_tagging_cube",
    "C26_tagging_commutes",
    "C26_tagging_disjoint",
    "C26_tagging_debug"
   ],
   "note": "formulas built through the API whose variables fit the target frame; in a debug build every returned result; release wrap-around shown in C26_case"
  },
  {
   "property": "C27",
   "status": "proved",
   "theorems": [
    "C27_cube_initial",
    "C27_cube_initial_state"
   ],
   "note": "any consistent cube; cubes over latches and inputs additionally give a state of the circuit"
  },
  {
   "property": "C28",
   "status": "proved",
   "theorems": [
    "C28_extract_exact",
    "C28_extract_undefined"
   ],
   "note": "every system built by from_aig, in both builds"
  },
  {
   "property": "C29",
   "status": "proved",
   "theorems": [
    "C29_transition_cone",
    "C29_transition_cone_exact"
   ],
   "note": "as C23"
  },
  {
   "property": "C30",
   "status": "partial",
   "theorems": [
    "C30_safety_cone_partial",
    "C30_safety_cone_exact",
    "C30_safety_cone_refuted"
   ],
   "note": "refuted when a bad literal is a latch that no gate reads; proved when every latch that is a bad literal is also read by a gate below the bad literals (bad_latches_read); the latches kept are characterised exactly"
  },
  {
   "property": "C31",
   "status": "proved",
   "theorems": [
    "C31_check_invariant_sound",
    "C31_check_invariant_complete",
    "C31_accepted_inductive",
    "C31_latch_exact"
   ],
   "note": "numbering must fit twice in 31 bits; in a release build also the candidate's variables"
  },
  {
   "property": "C32",
   "status": "proved",
   "theorems": [
    "C32_ctx_real_and_shortest",
    "C32_ctx_replays"
   ],
   "note": "every completion of the assignment; replay through simulate on any graph representing the circuit; the solver may panic and has to be right only for variables below m, where debug builds take m = 2^31 and release builds need (limit+1)*M < m, so the CaDiCaL adapter is covered (C11)"
  },
  {
   "property": "C33",
   "status": "proved",
   "theorems": [
    "C33_noctx_sound"
   ],
   "note": "timeouts are an arbitrary function of the depth (Clock); solver contract as in C32"
  },
  {
   "property": "C34",
   "status": "proved",
   "theorems": [
    "C34_bmc_complete",
    "C34_bmc_returns"
   ],
   "note": "numeric range: limit <= 2^31-1 and (limit+1)*M < m <= 2^31 where the solver is correct below m; outside it the search panics or wraps (C34_case)"
  },
  {
   "property": "C35",
   "status": "proved",
   "theorems": [
    "C35_stateless_proof_sound"
   ],
   "note": "every random order, any solver that is right below variable 2^31-1 or panics; numbering must fit (see C25)"
  },
  {
   "property": "C36",
   "status": "proved",
   "theorems": [
    "C36_stateless_ctx_sound"
   ],
   "note": "as C35; depth is a lower bound on the shortest counterexample (see C45)"
  },
  {
   "property": "C37",
   "status": "partial",
   "theorems": [
    "C37_stateless_terminates_partial",
    "C37_stateless_terminates_refuted",
    "C37_stateless_depth_refuted",
    "C37_stateless_always_stops",
    "C37_stateless_any_fuel",
    "C37_stateless_small"
   ],
   "note": "always stops; returns with the right verdict unless the shortest counterexample has 2^32 steps or more, where the u32 conversion of the depth may panic, or, in a debug build, 2^32 SAT calls are made, where the u32 counter overflows; the latter refutes the claim for debug builds (32-bit counter circuit); for circuits with at most six latches the full claim holds in both builds (C37_stateless_small); the depth conversion does panic in both builds for a 35-latch circuit and some random choices (C37_stateless_depth_refuted)"
  },
  {
   "property": "C38",
   "status": "proved",
   "theorems": [
    "C38_stateful_proof_sound"
   ],
   "note": "every random order and every stateful solver that answers right or panics; numbering must fit (see C25)"
  },
  {
   "property": "C39",
   "status": "proved",
   "theorems": [
    "C39_stateful_ctx_sound"
   ],
   "note": "as C38; depth is a lower bound on the shortest counterexample (see C45)"
  },
  {
   "property": "C40",
   "status": "partial",
   "theorems": [
    "C40_stateful_terminates_partial",
    "C40_stateful_terminates_refuted",
    "C40_stateful_depth_refuted",
    "C40_stateful_always_stops",
    "C40_stateful_any_fuel",
    "C40_stateful_small"
   ],
   "note": "as C37; for circuits with at most six latches the full claim holds in both builds (C40_stateful_small); the depth conversion does panic in both builds for a 35-latch circuit and some random choices (C40_stateful_depth_refuted)"
  },
  {
   "property": "C41",
   "status": "partial",
   "theorems": [
    "C41_pdr_proof_sound_partial",
    "C41_pdr_proof_sound_refuted"
   ],
   "note": "refuted in release builds when a bad literal is a latch; proved for debug builds, and for release builds when every latch that is a bad literal is also read by a gate below the bad literals (bad_latches_read)"
  },
  {
   "property": "C42",
   "status": "partial",
   "theorems": [
    "C42_pdr_ctx_sound_partial",
    "C42_pdr_ctx_sound_refuted"
   ],
   "note": "refuted in both builds when a bad literal is a latch; proved when every latch that is a bad literal is also read by a gate below the bad literals (bad_latches_read)"
  },
  {
   "property": "C43",
   "status": "partial",
   "theorems": [
    "C43_pdr_terminates_partial",
    "C43_pdr_always_stops",
    "C43_pdr_any_fuel",
    "C43_pdr_small",
    "C43_pdr_bad_latch_refuted",
    "C43_pdr_bad_input_refuted",
    "C43_pdr_counter_refuted",
    "C43_pdr_depth_refuted"
   ],
   "note": "refuted: panics when a bad literal is a latch (debug), or an input beside latches without reset value (release too); proved to always stop, and to return the right verdict when every latch that is a bad literal is also read by a gate below the bad literals (bad_latches_read) and states_readable holds; a debug build also panics when one of its u32 counts of SAT calls overflows (33-bit counter circuit); not with at most four latches; the depth conversion panics in both builds for a 35-latch circuit and some random choices (C43_pdr_depth_refuted)"
  },
  {
   "property": "C44",
   "status": "partial",
   "theorems": [
    "C44_provers_agree_partial",
    "C44_provers_agree_small",
    "C44_ic3_variants_agree",
    "C44_pdr_agrees_partial",
    "C44_bmc_agrees_partial",
    "C44_provers_agree_refuted"
   ],
   "note": "refuted for PDR (as C42); the IC3 variants agree unconditionally; all three and BMC agree under the stated conditions; the agreement theorems for two provers that both return also allow solvers that panic"
  },
  {
   "property": "C45",
   "status": "partial",
   "theorems": [
    "C45_depth_lower_bound_partial",
    "C45_depth_exact_refuted",
    "C45_ic3_depth",
    "C45_pdr_depth_partial"
   ],
   "note": "refuted: depth can be smaller; proved: depth never exceeds the length of any counterexample; IC3's is exact for counterexamples of at most one step and always too small otherwise; PDR's is exact for at most one step"
  },
  {
   "property": "C46",
   "status": "partial",
   "theorems": [
    "C46_stateless_again_partial",
    "C46_stateful_again_partial",
    "C46_stateless_two_answers",
    "C46_stateful_two_answers",
    "C46_stateless_second_call_panics",
    "C46_stateful_second_call_panics",
    "C46_pdr_second_call_panics",
    "C46_pdr_never_returns_twice",
    "C46_prove_again_refuted"
   ],
   "note": "refuted: in debug builds every second IC3 call panics unless a counterexample of at most one step exists; PDR always panics on a second call, in both builds; proved for IC3 in release builds (both verdicts right)"
  },
  {
   "property": "C47",
   "status": "partial",
   "theorems": [
    "C47_full_header_refuted",
    "C47_full_header_always_rejected",
    "C47_shorter_headers_partial"
   ],
   "note": "refuted: the complete ten-field header is always rejected (params.len() < 10); proved for the shorter headers"
  },
  {
   "property": "C48",
   "status": "proved",
   "theorems": [
    "C48_variable_numbers"
   ],
   "note": ""
  },
  {
   "property": "C49",
   "status": "proved",
   "theorems": [
    "C49_accepts_exactly",
    "C49_unambiguous",
    "C49_content"
   ],
   "note": "the grammar is a relation in SpecFile.v, independent of the parser; bytes are below 256"
  },
  {
   "property": "C50",
   "status": "proved",
   "theorems": [
    "C50_systems",
    "C50_values",
    "C50_features",
    "C50_stateless_solvers",
    "C50_stateful_solvers",
    "C50_formula_logic",
    "C50_check_invariant",
    "C50_bmc",
    "C50_ic3_stateless",
    "C50_ic3_stateful",
    "C50_pdr"
   ],
   "note": "same environment (hash orders, random choices, clock, engines) on both sides; the converse fails, release builds also return where debug builds panic"
  },
  {
   "property": "C51",
   "status": "partial",
   "theorems": [
    "C51_ic3_verdicts_partial",
    "C51_pdr_verdicts_partial",
    "C51_certificates_partial",
    "C51_cadical_budget_partial",
    "C51_bmc_answers_partial",
    "C51_answers_partial",
    "C51_constant_bad_ic3",
    "C51_constant_bad_pdr",
    "C51_constant_bad_refuted"
   ],
   "note": "composition of the earlier properties; refuted for constant bad literals in release builds (PDR reports a counterexample of a safe circuit); missing: the stateful CaDiCaL adapter in release builds beyond its variable budget (C13), numbers that do not fit (C25), PDR with a latch as bad literal (C41, C42)"
  },
  {
   "property": "C52",
   "status": "proved",
   "theorems": [
    "C52_literal_readable",
    "C52_literal_injective",
    "C52_clause_readable",
    "C52_clause_injective",
    "C52_cube_readable",
    "C52_cube_injective"
   ],
   "note": "proved for literals with legal numbers"
  },
  {
   "property": "C53",
   "status": "proved",
   "theorems": [
    "C53_from_aig_deterministic"
   ],
   "note": "for every graph value, without hypotheses on it"
  },
  {
   "property": "C54",
   "status": "proved",
   "theorems": [
    "C54_flag_changes_only_safety",
    "C54_flag_accepts"
   ],
   "note": "circuits as in C22; the literals of the clause are compared as sets"
  },
  {
   "property": "C55",
   "status": "proved",
   "theorems": [
    "C55_bmc_limits",
    "C55_bmc_searches_agree"
   ],
   "note": "first part without hypotheses on the solver or the system; second part under the hypotheses of C32"
  },
  {
   "property": "C56",
   "status": "proved",
   "theorems": [
    "C56_simulation_causal",
    "C56_simulation_memoryless",
    "C56_simulation_needs"
   ],
   "note": "first part for every graph value"
  },
  {
   "property": "C57",
   "status": "proved",
   "theorems": [
    "C57_simulation_satisfies_frames",
    "C57_frames_are_simulated"
   ],
   "note": "tagged variables of all clocks must fit into 31 bits; release builds: numbering must fit (see C25)"
  },
  {
   "property": "C58",
   "status": "proved",
   "theorems": [
    "C58_literal_order",
    "C58_clause_order",
    "C58_cube_order"
   ],
   "note": "all codes, all vectors"
  },
  {
   "property": "C59",
   "status": "proved",
   "theorems": [
    "C59_noctx_proves_safety",
    "C59_bmc_decides",
    "C59_prover_depth",
    "C59_bound_reached",
    "C59_smaller_limit_misses"
   ],
   "note": "release builds: numbering must fit (see C25); PDR's depth under bad_latches_read (see C42)"
  },
  {
   "property": "C60",
   "status": "proved",
   "theorems": [
    "C60_same_verdict",
    "C60_same_depth",
    "C60_bmc_and_provers"
   ],
   "note": "numbering must fit (see C25); PDR under bad_latches_read (see C41, C42); circuits and flags may differ outside the cone"
  },
  {
   "property": "C61",
   "status": "proved",
   "theorems": [
    "C61_stateless_calls",
    "C61_stateful_calls",
    "C61_pdr_calls",
    "C61_stateless_overflows",
    "C61_stateful_overflows",
    "C61_pdr_overflows",
    "C61_calls_exponential",
    "C61_stateless_calls_most",
    "C61_stateful_calls_most",
    "C61_pdr_calls_most"
   ],
   "note": "numbering must fit (see C25); the solver is correct and does not panic; PDR under bad_latches_read (see C42); the overflow theorems have the counter circuits of C37 and C43 as cases"
  },
  {
   "property": "C62",
   "status": "proved",
   "theorems": [
    "C62_stateless_invariant",
    "C62_stateful_invariant",
    "C62_pdr_invariant"
   ],
   "note": "for PDR acceptance by check_invariant needs the condition of C41; the vocabulary of its invariant does not"
  },
  {
   "property": "C63",
   "status": "partial",
   "theorems": [
    "C63_pdr_carries_over_partial",
    "C63_stateless_carries_over_partial",
    "C63_stateful_carries_over_partial",
    "C63_ic3_carries_over_refuted"
   ],
   "note": "holds for PDR where its proofs are right (C41); refuted for IC3, whose invariant has clauses for gates only the outputs depend on; for IC3 accepted exactly when every gate below an output is also below a bad literal"
  },
  {
   "property": "C64",
   "status": "proved",
   "theorems": [
    "C64_accepted_everywhere",
    "C64_append",
    "C64_without_outputs",
    "C64_no_bmc_counterexample",
    "C64_no_prover_counterexample"
   ],
   "note": "for PDR under the condition of C42"
  },
  {
   "property": "C65",
   "status": "proved",
   "theorems": [
    "C65_safe_iff_certificate"
   ],
   "note": ""
  },
  {
   "property": "C66",
   "status": "proved",
   "theorems": [
    "C66_proof_of_all",
    "C66_proof_of_parts",
    "C66_counterexample_of_part",
    "C66_counterexample_of_all",
    "C66_certificate_of_parts"
   ],
   "note": "for PDR under the condition of C42"
  },
  {
   "property": "C67",
   "status": "proved",
   "theorems": [
    "C67_verdict_simulated",
    "C67_bmc_simulated",
    "C67_invariant_simulated"
   ],
   "note": "for PDR under the condition of C42"
  },
  {
   "property": "C68",
   "status": "proved",
   "theorems": [
    "C68_proof_kept",
    "C68_invariant_kept",
    "C68_accepted_kept",
    "C68_counterexample_kept",
    "C68_counterexample_fixed"
   ],
   "note": "for PDR under the condition of C42"
  },
  {
   "property": "C69",
   "status": "proved",
   "theorems": [
    "C69_proof_carries_over",
    "C69_counterexample_carries_over",
    "C69_same_answers"
   ],
   "note": "for PDR under the condition of C42"
  }
 ]
}