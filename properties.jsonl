{"id": "C01", "title": "Literal encoding is lossless", "statement": "For every number n in 1..2^31-1, Literal::new(n) is a non-negated literal whose get_number() is n; !l keeps the number, flips is_negated(), and !!l == l; negate_if_true(b) negates exactly when b; two literals are equal iff number and polarity agree. A debug build rejects (panics on) every other number; a release build silently aliases numbers that differ by 2^31.", "quantifier": "every u32 number, both polarities, both build profiles", "why_tests_cant": "2^32 values and two build profiles; tests use numbers 1..6", "anchors": ["src/formulas/literal.rs: Literal::new, negate_if_true, get_number, is_negated, Not"]}
{"id": "C02", "title": "Clauses and cubes are canonical", "statement": "Clause::new / Cube::new of two slices give equal objects iff the slices are permutations of each other; iter() yields exactly the given literals (with multiplicity) in non-decreasing order; len/is_empty count them; get_highest_variable_number is the maximum variable number (0 when empty).", "quantifier": "every pair of literal slices", "why_tests_cant": "unbounded slices and orders", "anchors": ["src/formulas/clause.rs: Clause::new, iter, len, get_highest_variable_number", "src/formulas/cube.rs: Cube::new"]}
{"id": "C03", "title": "Negation is De Morgan and involutive", "statement": "For every clause c and every assignment, !c (a cube) is true exactly when c is false; for every cube q, !q (a clause) is true exactly when q is false; !!c == c and !!q == q.", "quantifier": "every clause/cube built through the API and every assignment", "why_tests_cant": "semantic statement over all assignments", "anchors": ["src/formulas/clause.rs: impl Not for Clause", "src/formulas/cube.rs: impl Not for Cube"]}
{"id": "C04", "title": "CNF is a set of clauses with a correct header", "statement": "After any sequence of add_clause and append calls starting from CNF::new(): contains(c) iff c was added; len() is the number of distinct clauses added; get_max_variable_number() is the maximum variable number over the added clauses (0 if none); two CNFs are == iff they contain the same clauses, and equal CNFs also agree on len and get_max_variable_number; append is union.", "quantifier": "every history of add_clause/append operations (including appending separately built CNFs)", "why_tests_cant": "unbounded histories", "anchors": ["src/formulas/cnf.rs: CNF::new, add_clause, append, contains, len, get_max_variable_number, PartialEq"]}
{"id": "C05", "title": "to_cnf preserves meaning", "statement": "Clause::to_cnf() is true under exactly the assignments that make the clause true, Cube::to_cnf() exactly under those that make the cube true; the conjunction of appended CNFs is the logical and.", "quantifier": "every clause, cube, CNF and assignment", "why_tests_cant": "quantifies over all assignments", "anchors": ["src/formulas/clause.rs: to_cnf", "src/formulas/cube.rs: to_cnf", "src/formulas/cnf.rs: append"]}
{"id": "C06", "title": "DIMACS printing is canonical and faithful", "statement": "to_string() of a CNF does not depend on hash iteration order; a DIMACS reader applied to it gets back exactly the set of clauses, the clause count and the max variable number; hence two CNFs print identically iff they are equal.", "quantifier": "every CNF reachable through the API and every hash iteration order", "why_tests_cant": "hash order is random and the formula unbounded", "anchors": ["src/formulas/literal.rs: Display", "src/formulas/clause.rs: Display", "src/formulas/cube.rs: Display", "src/formulas/cnf.rs: Display"]}
{"id": "C07", "title": "Assignments read back what they were built from", "statement": "Assignment::from_dimacs_assignment(v).get_value(x) is Some(true) iff x occurs positively in v, Some(false) iff it occurs only negatively, None iff it does not occur.", "quantifier": "every vector of non-zero i32 literals other than i32::MIN", "why_tests_cant": "unbounded vectors", "anchors": ["src/solvers/sat/assignment.rs: from_dimacs_assignment, get_value"]}
{"id": "C08", "title": "Evaluation of formulas under an assignment is correct", "statement": "evaluate_assignment_on_literal/clause/cnf return the Boolean truth value of the formula whenever the assignment is defined on all its variables, and for a partial assignment never return a value that differs from the truth value under any completion (they panic instead).", "quantifier": "every formula, every (partial) assignment, every hash iteration order", "why_tests_cant": "all formulas and assignments", "anchors": ["src/algorithms/formula_logic.rs: evaluate_assignment_on_literal, evaluate_assignment_on_clause, evaluate_assignment_on_cnf"]}
{"id": "C09", "title": "does_a_imply_b decides implication", "statement": "With a correct stateless solver, does_a_imply_b(a,b) returns true iff every assignment satisfying a satisfies b.", "quantifier": "every pair of CNFs, every correct solver, every iteration order", "why_tests_cant": "semantic implication over all assignments", "anchors": ["src/algorithms/formula_logic.rs: does_a_imply_b"]}
{"id": "C10", "title": "is_a_and_b_satisfiable decides joint satisfiability", "statement": "With a correct stateless solver, is_a_and_b_satisfiable(a,b) returns true iff some assignment satisfies both a and b.", "quantifier": "every pair of CNFs, every correct solver", "why_tests_cant": "semantic statement over all assignments", "anchors": ["src/algorithms/formula_logic.rs: is_a_and_b_satisfiable"]}
{"id": "C11", "title": "Stateless solver adapters are faithful", "statement": "Given that the third-party engine is correct on the integer clauses it is handed, CaDiCalSolver/SplrSolver/VarisatSolver::solve_cnf answers UnSat iff the CNF is unsatisfiable and otherwise returns an Assignment under which the CNF evaluates to true; the CaDiCaL and Splr assignments define every variable 1..get_max_variable_number().", "quantifier": "every CNF with legal literals, every correct engine", "why_tests_cant": "all formulas, all engine answers", "anchors": ["src/solvers/sat/stateless/cadical_solver.rs", "src/solvers/sat/stateless/splr_solver.rs", "src/solvers/sat/stateless/varisat_solver.rs"]}
{"id": "C12", "title": "Stateful MiniSat adapter: temporary constraints stay temporary", "statement": "For every sequence of add_cnf and solve calls, solve(cube, clause) answers Sat iff the conjunction of all CNFs added so far with this call's cube and clause is satisfiable (earlier temporary cubes and clauses have no effect), and a Sat assignment satisfies that conjunction and defines every variable mentioned so far.", "quantifier": "every call history, every correct engine", "why_tests_cant": "unbounded histories", "anchors": ["src/solvers/sat/stateful/minisat_solver.rs: add_cnf, solve, handle_temporary_extra_clause, extend_mini_sat_literals_if_needed", "src/solvers/sat/stateful/mod.rs: StatefulSatSolver"]}
{"id": "C13", "title": "Stateful CaDiCaL adapter: temporary constraints stay temporary", "statement": "The same statement as for MiniSat holds for the stateful CaDiCalSolver.", "quantifier": "every call history, every correct engine", "why_tests_cant": "unbounded histories", "anchors": ["src/solvers/sat/stateful/cadical_solver.rs: add_cnf, solve, new_lit, handle_temporary_extra_clause, extend_cadical_literals_if_needed"]}
{"id": "C14", "title": "Binary delta decoding inverts the AIGER encoding", "statement": "Reading the AIGER variable-length encoding of any delta below 2^38 returns that delta and consumes exactly the encoded bytes, whatever follows; anything longer, or a truncated encoding, is rejected with a panic.", "quantifier": "every delta and every byte suffix", "why_tests_cant": "2^38 values times every suffix", "anchors": ["src/models/and_inverter_graph/construction.rs: read_delta"]}
{"id": "C15", "title": "Parsing inverts AIGER encoding", "statement": "For every well-formed AIGER circuit (inputs, latches with resets, outputs, bad literals, constraints, and gates), reading its binary .aig encoding yields an AndInverterGraph whose getters return exactly that circuit.", "quantifier": "every well-formed circuit, with any symbol table / comment section that the reader accepts", "why_tests_cant": "unbounded circuits", "anchors": ["src/models/and_inverter_graph/construction.rs: from_aig_path, from_vector_of_bytes"]}
{"id": "C16", "title": "Every accepted file is a well-formed graph", "statement": "If reading a file returns (does not panic), then the graph is well formed: M = I+L+A, node i has literal 2i, every next/output/bad/constraint literal refers to an existing node, resets are 0, 1 or the latch itself, and every and gate satisfies lhs > rhs0 >= rhs1 (so the logic is acyclic).", "quantifier": "every byte string", "why_tests_cant": "all byte strings", "anchors": ["src/models/and_inverter_graph/construction.rs: from_vector_of_bytes, check_literal, create_and_nodes_of_aig, check_aig"]}
{"id": "C17", "title": "ASCII export is a faithful copy of the circuit", "statement": "For every graph obtained from a file, an ASCII-AIGER (.aag) reader applied to get_aag_string() recovers exactly the graph's inputs, latches with resets, outputs, bad literals, constraints and and gates.", "quantifier": "every accepted file", "why_tests_cant": "unbounded circuits", "anchors": ["src/models/and_inverter_graph/conversion.rs: get_aag_string"]}
{"id": "C18", "title": "Symbol names survive reading and export", "statement": "The symbol recorded for position p of kind i/l/o/b/c in the file is the one exported for that position by get_aag_string().", "quantifier": "every accepted file with a symbol table", "why_tests_cant": "depends on aliasing between positions that share a node", "anchors": ["src/models/and_inverter_graph/construction.rs: add_symbol_to_node, read_symbols_and_comments", "src/models/and_inverter_graph/conversion.rs: get_aag_string", "src/models/and_inverter_graph/aig_node.rs: set_output_symbol"]}
{"id": "C19", "title": "Cone of influence is exact", "statement": "get_and_information_in_cone_of_influence(lits) terminates and returns, without duplicates, exactly the and gates in the transitive fan-in of lits.", "quantifier": "every well-formed graph, every list of in-range literals, every hash order", "why_tests_cant": "reachability over unbounded graphs", "anchors": ["src/models/and_inverter_graph/getting.rs: get_and_information_in_cone_of_influence"]}
{"id": "C20", "title": "Simulation computes the circuit's behaviour", "statement": "simulate(inputs, initial_latches) returns one value vector per clock; in each, node 0 is false, inputs equal the given inputs, every and gate is the conjunction of its operands, latches start at their reset (or given) value and then take the previous value of their next literal; this valuation is the unique one with these properties.", "quantifier": "every well-formed graph, every input trace of any length, every initial latch map", "why_tests_cant": "unbounded circuits and traces", "anchors": ["src/models/and_inverter_graph/simulation.rs: simulate, get_initial_simulation_state, get_next_simulation_state, get_and_result"]}
{"id": "C21", "title": "Simulation accepts every complete stimulus", "statement": "simulate does not panic whenever the trace is non-empty, each clock gives a value for exactly the inputs, and initial values are supplied for (at least) the uninitialised latches.", "quantifier": "every well-formed graph and stimulus", "why_tests_cant": "needs the precise precondition over all circuits", "anchors": ["src/models/and_inverter_graph/simulation.rs: simulate"]}
{"id": "C22", "title": "Initial relation is exactly the reset states", "statement": "An assignment satisfies get_initial_relation() iff every latch with reset 0 is false and every latch with reset 1 is true in it (uninitialised latches and all other variables are free).", "quantifier": "every accepted file, every assignment; numbering fits: variables fit twice in 31 bits, no constant bad literal (see C25)", "why_tests_cant": "all circuits and assignments", "anchors": ["src/models/finite_state_transition_system/construction.rs: create_initial_cnf", "src/models/finite_state_transition_system/getting.rs: get_initial_relation"]}
{"id": "C23", "title": "Transition relation is exactly one clock step", "statement": "For every assignment satisfying get_transition_relation(), the tagged (v+M) latch variables equal the next-state values computed by the circuit from the untagged latch and input variables; conversely every circuit step extends to a satisfying assignment.", "quantifier": "every accepted file, every assignment; numbering fits: variables fit twice in 31 bits, no constant bad literal (see C25)", "why_tests_cant": "all circuits, states and inputs", "anchors": ["src/models/finite_state_transition_system/construction.rs: create_transition_cnf, get_cnf_that_describes_wire_values_as_a_function_of_latch_values_for_specific_wires"]}
{"id": "C24", "title": "Safety formulas are exactly the bad literals", "statement": "Under the state-to-safety translation, the unsafety clause is true iff some bad literal (or, when outputs count as bad, some output) of the circuit is true for the assignment's latch and input values, and get_safety_property() is its negation.", "quantifier": "every accepted file, both values of assume_output_is_bad, every assignment; numbering fits: variables fit twice in 31 bits, no constant bad literal (see C25)", "why_tests_cant": "all circuits and assignments", "anchors": ["src/models/finite_state_transition_system/construction.rs: create_state_to_safety_translation, create_unsafety_property", "src/models/finite_state_transition_system/getting.rs: get_safety_property, get_unsafety_property"]}
{"id": "C25", "title": "from_aig accepts every unconstrained circuit that fits", "statement": "FiniteStateTransitionSystem::from_aig returns (does not panic, does not silently mis-number a variable) for every accepted file without constraints whose largest variable passes its size check.", "quantifier": "every accepted file, both flags, both build profiles", "why_tests_cant": "needs exact panic conditions over all circuits", "anchors": ["src/models/finite_state_transition_system/construction.rs: from_aig, get_literal_from_aig_literal"]}
{"id": "C26", "title": "Tagging is a renaming to a fresh time frame", "statement": "add_tags_to_relation/clause/cube(x,k) is true under a iff x is true under the assignment v -> a(v + k*M); tagging commutes with negation and to_cnf; different tags use disjoint variables for variables in 1..M; no silent wrap-around in a debug build.", "quantifier": "every formula, tag and assignment", "why_tests_cant": "all formulas and tags", "anchors": ["src/models/finite_state_transition_system/features.rs: add_tags_to_relation, add_tags_to_cube, add_tags_to_clause"]}
{"id": "C27", "title": "is_cube_initial decides intersection with the initial states", "statement": "For every contradiction-free cube, is_cube_initial(cube) is true iff some initial state satisfies the cube.", "quantifier": "every accepted file, every consistent cube; numbering fits: variables fit twice in 31 bits, no constant bad literal (see C25)", "why_tests_cant": "all cubes and circuits", "anchors": ["src/models/finite_state_transition_system/features.rs: is_cube_initial"]}
{"id": "C28", "title": "State extraction is exact", "statement": "extract_state_from_assignment(a) returns, for any assignment defining all latches, the cube with one literal per latch whose only state is the one in a; it panics otherwise.", "quantifier": "every accepted file and assignment; numbering fits: variables fit twice in 31 bits, no constant bad literal (see C25)", "why_tests_cant": "all circuits and assignments", "anchors": ["src/models/finite_state_transition_system/features.rs: extract_state_from_assignment"]}
{"id": "C29", "title": "Transition-cone projection keeps all predecessors", "statement": "If a state steps into a target under some input, then every state that agrees with it on intersect_cube_with_cone_of_transition(state) has the same successor under that input.", "quantifier": "every accepted file, state and input; numbering fits: variables fit twice in 31 bits, no constant bad literal (see C25)", "why_tests_cant": "all circuits and states", "anchors": ["src/models/finite_state_transition_system/features.rs: intersect_cube_with_cone_of_transition", "src/models/finite_state_transition_system/construction.rs: from_aig (cone_of_transition_only_latches)"]}
{"id": "C30", "title": "Safety-cone projection keeps badness", "statement": "If a state is bad under some input, then every state that agrees with it on intersect_cube_with_cone_of_safety(state) is bad under that input.", "quantifier": "every accepted file, state and input; numbering fits: variables fit twice in 31 bits, no constant bad literal (see C25)", "why_tests_cant": "all circuits and states", "anchors": ["src/models/finite_state_transition_system/features.rs: intersect_cube_with_cone_of_safety", "src/models/finite_state_transition_system/construction.rs: from_aig (cone_of_safety_only_latches)"]}
{"id": "C31", "title": "check_invariant accepts only inductive safe invariants, and all of them over latches", "statement": "With a correct solver, if check_invariant(inv) returns then no run of the circuit ever reaches a bad state; and it returns for every CNF over latches that holds initially, is preserved by every step and excludes bad states.", "quantifier": "every accepted file and candidate CNF; numbering fits: variables fit twice in 31 bits, no constant bad literal (see C25)", "why_tests_cant": "semantic statement over all runs", "anchors": ["src/models/finite_state_transition_system/features.rs: check_invariant"]}
{"id": "C32", "title": "BMC counterexamples are real and shortest", "statement": "If BMC::search returns CTX{assignment, depth}, then the assignment read at tag t gives the inputs of clock t, and simulating the circuit with them from the assignment's initial latches makes a bad literal true at clock depth and at no earlier clock; no run reaches bad in fewer than depth steps.", "quantifier": "every accepted file, depth limit, solver answer and timing; numbering fits: variables fit twice in 31 bits, no constant bad literal (see C25)", "why_tests_cant": "all circuits, depths, timings", "anchors": ["src/algorithms/bmc.rs: search, timed_sat_call"]}
{"id": "C33", "title": "BMC NoCTX bounds are sound", "statement": "If BMC::search returns NoCTX{depth_reached = d}, then no run of the circuit is bad at any clock 0..d, regardless of when the timeout fires (d = -1 claims nothing).", "quantifier": "every accepted file, depth limit and timeout schedule; numbering fits: variables fit twice in 31 bits, no constant bad literal (see C25)", "why_tests_cant": "all timeout schedules", "anchors": ["src/algorithms/bmc.rs: search, timed_sat_call"]}
{"id": "C34", "title": "BMC is complete up to its limit", "statement": "If no timeout fires, BMC::search(limit) returns CTX iff some run is bad within limit steps, and otherwise NoCTX{limit}.", "quantifier": "every accepted file and limit within the numeric range; numbering fits: variables fit twice in 31 bits, no constant bad literal (see C25)", "why_tests_cant": "all circuits and limits", "anchors": ["src/algorithms/bmc.rs: search"]}
{"id": "C35", "title": "IC3Stateless proofs are sound", "statement": "If IC3Stateless::prove returns Proof{invariant}, then no run of the circuit ever reaches a bad state, and check_invariant(invariant) succeeds.", "quantifier": "every accepted file, every correct solver, every random shuffle, hash order and queue tie-break; numbering fits: variables fit twice in 31 bits, no constant bad literal (see C25)", "why_tests_cant": "all circuits and all nondeterminism", "anchors": ["src/algorithms/proof/ic3_stateless_solver.rs: prove"]}
{"id": "C36", "title": "IC3Stateless counterexamples are sound", "statement": "If IC3Stateless::prove returns CTX{depth}, then some run of the circuit reaches a bad state, and none does in fewer than depth steps.", "quantifier": "every accepted file, every correct solver, every random shuffle, hash order and queue tie-break; numbering fits: variables fit twice in 31 bits, no constant bad literal (see C25)", "why_tests_cant": "all circuits and all nondeterminism", "anchors": ["src/algorithms/proof/ic3_stateless_solver.rs: prove"]}
{"id": "C37", "title": "IC3Stateless always terminates with an answer", "statement": "IC3Stateless::prove on a fresh prover terminates without panicking for every accepted file that from_aig accepts, so it returns Proof iff the circuit is safe.", "quantifier": "every accepted file, every correct solver, every random shuffle, hash order and queue tie-break; numbering fits: variables fit twice in 31 bits, no constant bad literal (see C25)", "why_tests_cant": "termination over all inputs", "anchors": ["src/algorithms/proof/ic3_stateless_solver.rs: prove"]}
{"id": "C38", "title": "IC3Stateful proofs are sound", "statement": "If IC3Stateful::prove returns Proof{invariant}, then no run of the circuit ever reaches a bad state, and check_invariant(invariant) succeeds.", "quantifier": "every accepted file, every correct solver, every random shuffle, hash order and queue tie-break; numbering fits: variables fit twice in 31 bits, no constant bad literal (see C25)", "why_tests_cant": "all circuits and all nondeterminism", "anchors": ["src/algorithms/proof/ic3_stateful_solver.rs: prove"]}
{"id": "C39", "title": "IC3Stateful counterexamples are sound", "statement": "If IC3Stateful::prove returns CTX{depth}, then some run of the circuit reaches a bad state, and none does in fewer than depth steps.", "quantifier": "every accepted file, every correct solver, every random shuffle, hash order and queue tie-break; numbering fits: variables fit twice in 31 bits, no constant bad literal (see C25)", "why_tests_cant": "all circuits and all nondeterminism", "anchors": ["src/algorithms/proof/ic3_stateful_solver.rs: prove"]}
{"id": "C40", "title": "IC3Stateful always terminates with an answer", "statement": "IC3Stateful::prove on a fresh prover terminates without panicking for every accepted file that from_aig accepts, so it returns Proof iff the circuit is safe.", "quantifier": "every accepted file, every correct solver, every random shuffle, hash order and queue tie-break; numbering fits: variables fit twice in 31 bits, no constant bad literal (see C25)", "why_tests_cant": "termination over all inputs", "anchors": ["src/algorithms/proof/ic3_stateful_solver.rs: prove"]}
{"id": "C41", "title": "PDR proofs are sound", "statement": "If PDR::prove returns Proof{invariant}, then no run of the circuit ever reaches a bad state, and check_invariant(invariant) succeeds.", "quantifier": "every accepted file, every correct solver, every random shuffle, hash order and queue tie-break; numbering fits: variables fit twice in 31 bits, no constant bad literal (see C25)", "why_tests_cant": "all circuits and all nondeterminism", "anchors": ["src/algorithms/proof/pdr.rs: prove"]}
{"id": "C42", "title": "PDR counterexamples are sound", "statement": "If PDR::prove returns CTX{depth}, then some run of the circuit reaches a bad state, and none does in fewer than depth steps.", "quantifier": "every accepted file, every correct solver, every random shuffle, hash order and queue tie-break; numbering fits: variables fit twice in 31 bits, no constant bad literal (see C25)", "why_tests_cant": "all circuits and all nondeterminism", "anchors": ["src/algorithms/proof/pdr.rs: prove"]}
{"id": "C43", "title": "PDR always terminates with an answer", "statement": "PDR::prove on a fresh prover terminates without panicking for every accepted file that from_aig accepts, so it returns Proof iff the circuit is safe.", "quantifier": "every accepted file, every correct solver, every random shuffle, hash order and queue tie-break; numbering fits: variables fit twice in 31 bits, no constant bad literal (see C25)", "why_tests_cant": "termination over all inputs", "anchors": ["src/algorithms/proof/pdr.rs: prove"]}
{"id": "C44", "title": "The provers and BMC agree", "statement": "On the same system IC3Stateless, IC3Stateful and PDR return the same verdict (Proof or CTX), and BMC finds a counterexample for some limit iff the provers report CTX.", "quantifier": "every accepted file, every correct solver, all nondeterminism; numbering fits: variables fit twice in 31 bits, no constant bad literal (see C25)", "why_tests_cant": "compares unbounded executions", "anchors": ["src/algorithms/proof/mod.rs: FiniteStateTransitionSystemProver", "src/algorithms/bmc.rs: search"]}
{"id": "C45", "title": "Reported counterexample depth is the counterexample length", "statement": "The depth in ProofResult::CTX{depth} equals the number of steps of the shortest run to a bad state (the depth BMC reports).", "quantifier": "every unsafe circuit; numbering fits: variables fit twice in 31 bits, no constant bad literal (see C25)", "why_tests_cant": "all unsafe circuits", "anchors": ["src/algorithms/proof/ic3_stateless_solver.rs: prove", "src/algorithms/proof/proof_result.rs"]}
{"id": "C46", "title": "A prover object can be asked again", "statement": "Calling prove() a second time on the same prover object returns the same verdict and does not panic.", "quantifier": "every circuit, both build profiles; numbering fits: variables fit twice in 31 bits, no constant bad literal (see C25)", "why_tests_cant": "call histories", "anchors": ["src/algorithms/proof/mod.rs: FiniteStateTransitionSystemProver::prove"]}
{"id": "C47", "title": "Every AIGER 1.9 header that declares no justice/fairness is accepted", "statement": "A header 'aig M I L O A B C J F' with J = F = 0 is accepted like the same header with trailing zero fields omitted.", "quantifier": "every well-formed header", "why_tests_cant": "all header shapes", "anchors": ["src/models/and_inverter_graph/construction.rs: check_first_line_of_aig_and_load_it"]}
{"id": "C48", "title": "Variable collection is exact", "statement": "get_all_variable_numbers_in_cnf(f) returns, without duplicates, exactly the variable numbers that occur in some literal of some clause of f.", "quantifier": "every CNF", "why_tests_cant": "The result feeds the cone-of-influence projections; a missed or spurious variable only shows on particular formulas, and tests sample a few.", "anchors": ["src/algorithms/formula_logic.rs: get_all_variable_numbers_in_cnf"]}
{"id": "C49", "title": "The reader accepts exactly the AIGER files of the documented shape", "statement": "A byte string is accepted by from_vector_of_bytes iff it is a binary AIGER file: a header line 'aig' with five to eight numbers (J = 0), latch lines, literal lines, delta-coded gates, a symbol table and an optional comment, describing a well-formed circuit. Numbers may have a plus sign and leading zeros, deltas need not be shortest, names and comments are any UTF-8 text, the last line end may be missing. The circuit is unique, the graph represents it, and the exported text contains that circuit, for every named position the last name given to its variable, and the comment without NUL bytes.", "quantifier": "every byte string", "why_tests_cant": "Both directions range over all byte strings: every malformed file has to be rejected and every unusual spelling accepted.", "anchors": ["src/models/and_inverter_graph/construction.rs: from_vector_of_bytes, check_first_line_of_aig_and_load_it, read_symbols_and_comments", "src/models/and_inverter_graph/conversion.rs: get_aag_string"]}
{"id": "C50", "title": "What a debug build returns, a release build returns", "statement": "If a call returns a value in a debug build, then the same call with the same inputs, hash orders, random choices, clock and engine behaviour returns the same value in a release build. This holds for Literal::new, Assignment::from_dimacs_assignment, FiniteStateTransitionSystem::from_aig, the add_tags_* functions, extract_state_from_assignment, check_invariant, the formula-logic queries, every call history of the solver adapters, BMC search, both IC3 provers and PDR. So debug assertions and overflow checks never change a result and have no side effects that matter.", "quantifier": "all inputs, all hash orders and random choices, all engine behaviours, all histories of calls", "why_tests_cant": "cargo test runs one profile at a time; a result that depends on the profile shows only for inputs at which an assertion has side effects or arithmetic wraps.", "anchors": ["src/formulas/literal.rs: new", "src/models/finite_state_transition_system/construction.rs: from_aig", "src/models/finite_state_transition_system/features.rs", "src/solvers/sat/stateful/cadical_solver.rs", "src/algorithms/proof/ic3_stateful_solver.rs: is_clause_inductive_relative_to_fi (debug_assert with a solver call)", "src/algorithms/proof/pdr.rs", "src/algorithms/bmc.rs"]}
{"id": "C51", "title": "From a file to the right answer", "statement": "Read an AIGER file, build the transition system, and run BMC or one of the three provers with any of the solvers of the crate. Every answer is right about the circuit written in the file: a proof means that no run is ever bad, and its invariant passes check_invariant with any stateless solvers in either build; a counterexample of a prover means that some run is bad and none before its depth; a counterexample of BMC replays through simulate on the graph that was read, showing a bad literal at its depth and not earlier; a NoCTX of BMC means that no run is bad up to its depth. For files without constraints and numbers that fit, reading succeeds and the provers return.", "quantifier": "all byte strings in the file format, all adapters over engines that keep their contracts, all hash orders and random choices, both builds", "why_tests_cant": "Tests cover a few files and one engine version; the claim joins the parser, the encoding into formulas, the adapters and the algorithms for all files and every behaviour of the engines that their contracts allow.", "anchors": ["src/models/and_inverter_graph/construction.rs: from_vector_of_bytes", "src/models/finite_state_transition_system/construction.rs: from_aig", "src/models/finite_state_transition_system/features.rs: check_invariant", "src/solvers/sat/stateless", "src/solvers/sat/stateful", "src/algorithms/bmc.rs", "src/algorithms/proof"]}
{"id": "C52", "title": "Printing of literals, clauses and cubes", "statement": "The text of a literal is its DIMACS number; the text of a clause is its DIMACS line and reads back as its literals, repeated ones included; the text of a cube is a DIMACS formula whose header counts its clauses and names its highest variable, and whose clauses are one unit clause per distinct literal. Two literals print alike only if they are equal, two clauses only if they have the same literals with the same multiplicity, two cubes exactly if they have the same set of literals, so a cube's text does not tell how often a literal is repeated although == does.", "quantifier": "all literals, clauses and cubes with legal variable numbers, all hash orders", "why_tests_cant": "Injectivity quantifies over pairs of values of any size and over the iteration order of the hash set behind the text.", "anchors": ["src/formulas/literal.rs: fmt", "src/formulas/clause.rs: fmt", "src/formulas/cube.rs: fmt"]}
{"id": "C53", "title": "from_aig is deterministic", "statement": "Building the transition system of the same graph twice gives the same system: the two calls both return or both panic, and the results have the same numbers, initial relation, safety and unsafety property, equal (==) transition relation and safety translation with the same largest variable, and answer is_cube_initial and both cone intersections alike for every cube, although the gates are collected in a HashSet whose iteration order differs from call to call.", "quantifier": "every graph value, both flags, both builds, every pair of hash iteration orders, every cube", "why_tests_cant": "The iteration order of a HashSet is seeded randomly per set; a test sees a few orders of a few graphs.", "anchors": ["src/models/and_inverter_graph/getting.rs: get_and_information_in_cone_of_influence", "src/models/finite_state_transition_system/construction.rs: from_aig"]}
{"id": "C54", "title": "assume_output_is_bad only changes what is bad", "statement": "Building the transition systems of one graph with assume_output_is_bad = true and = false gives systems with the same variable numbers, initial relation, transition relation, is_cube_initial and transition-cone answers; the unsafety clause with the flag contains exactly the literals of the clause without it and the outputs of the graph. With the flag the construction succeeds iff it succeeds without it and, in a debug build, no output is a constant.", "quantifier": "every circuit, both builds, every pair of hash iteration orders, every cube", "why_tests_cant": "The claim compares two constructions for every graph; tests build a few graphs with one flag each.", "anchors": ["src/models/finite_state_transition_system/construction.rs: from_aig", "src/models/finite_state_transition_system/construction.rs: create_unsafety_property"]}
{"id": "C55", "title": "BMC searches with other limits or solvers do not contradict each other", "statement": "With the same solver and clock behaviour, raising search_depth_limit keeps a counterexample (same assignment and depth) and the result of a search the clock stopped; lowering it keeps a counterexample that lies within the new limit and otherwise gives NoCTX with the new limit. Two searches for the same circuit with any sound solvers, clocks, limits and builds that both return CTX report the same depth, and a NoCTX bound is always below the depth of any CTX.", "quantifier": "every system, solver, clock behaviour and pair of limits below 2^32 - 1; every circuit and pair of sound solvers for the second part", "why_tests_cant": "Limits, timeouts and solver answers form an unbounded space of pairs of searches; tests run single searches.", "anchors": ["src/algorithms/bmc.rs: search", "src/algorithms/bmc.rs: timed_sat_call"]}
{"id": "C56", "title": "Simulation is causal and remembers only the latches", "statement": "The first n vectors of simulate(inputs, init) are simulate(inputs[..n], init), n >= 1. Two simulations of one graph whose latch values agree at some clock of each and whose inputs agree from then on return equal vectors from then on. Initial values given for latches with a reset value do not influence the result, nor does the order in which a map was filled.", "quantifier": "every graph for the first part, every well-formed circuit for the others; every pair of stimuli of any length", "why_tests_cant": "The claim relates pairs of simulations of unbounded length on every circuit.", "anchors": ["src/models/and_inverter_graph/simulation.rs: simulate", "src/models/and_inverter_graph/simulation.rs: get_next_simulation_state"]}
{"id": "C57", "title": "Unrolled formulas and simulation describe the same runs", "statement": "Read the vectors returned by simulate as values of the tagged variables (value of node v at clock t = value of variable v + t*M, M = get_max_literal_number()). Then get_initial_relation(), add_tags_to_relation(get_transition_relation(), t) for every t below the last clock, and the tagged state-to-safety translation of every clock are true, and the tagged unsafety clause of clock t is true iff a bad literal is true in vector t. Conversely any values making the initial relation and n tagged transition relations true agree, on all inputs and latches of all n+1 clocks, with simulate run on the inputs and initial latches they contain.", "quantifier": "every circuit and its system, every stimulus, every number of clocks whose tagged variables fit into 31 bits", "why_tests_cant": "Relates two independent components on unboundedly many circuits, stimuli and lengths; a test compares a few traces.", "anchors": ["src/models/and_inverter_graph/simulation.rs: simulate", "src/models/finite_state_transition_system/features.rs: add_tags_to_relation", "src/models/finite_state_transition_system/getting.rs: get_transition_relation"]}
{"id": "C58", "title": "Literals, clauses and cubes are totally ordered, consistently with equality", "statement": "Literals compare by variable number, and a literal comes before its negation. Clauses (and cubes) compare lexicographically by their sorted literals, a proper prefix first. The comparison is Equal exactly for equal objects, antisymmetric and transitive, so sorting and ordered collections of formulas are canonical.", "quantifier": "every pair and triple of literals, clauses, cubes", "why_tests_cant": "Total-order laws quantify over all triples; tests compare a few.", "anchors": ["src/formulas/literal.rs: derive(PartialOrd, Ord)", "src/formulas/clause.rs: derive(PartialOrd, Ord)", "src/formulas/cube.rs: derive(PartialOrd, Ord)"]}
{"id": "C59", "title": "The latches badness depends on bound the search", "statement": "If the bad literals depend (through gates and over time) on at most n latches, a BMC search that found nothing up to clock 2^n - 1 proves the circuit safe at every clock; with that limit BMC decides safety, and no prover reports a depth of 2^n or more. The bound is exact: for every n some circuit with n latches has a shortest counterexample of 2^n - 1 steps, and BMC with limit 2^n - 2 misses it.", "quantifier": "all circuits, all lists of latches containing the cone of influence of the bad literals, all sound solvers and timeouts; the cone may be much smaller than the set of latches", "why_tests_cant": "safety at every clock and the pigeonhole argument over all runs are unbounded", "anchors": ["src/algorithms/bmc.rs: search", "src/algorithms/proof/proof_result.rs"]}
{"id": "C60", "title": "Numbering and unrelated logic do not change answers", "statement": "Take two circuits in which the logic behind the bad literals (through gates and over time) is the same up to renaming of variables: inputs to inputs, latches to latches with the same next state and reset, gates to gates, bad literals to bad literals. Everything else may differ: further inputs, latches, gates, outputs, the order of everything, whether the bad literals are outputs or bad-state literals. Then any two provers that return give the same verdict on them, two BMC searches report counterexamples of the same depth (or one stopped before it), and where BMC finds a counterexample in one no prover proves the other. With equal circuits: the answer depends on the circuit only, not on the build profile, hash orders, solver, random choices or prover. (PDR only where its verdicts are sound, C41/C42.)", "quantifier": "all pairs of circuits and renamings of the cone of influence, all builds, systems, sound solvers, random choices, timeouts, limits", "why_tests_cant": "A metamorphic property over all pairs of circuits, and over all runs of nondeterministic provers; tests compare a few pairs.", "anchors": ["src/algorithms/proof/ic3_stateless_solver.rs: prove", "src/algorithms/proof/ic3_stateful_solver.rs: prove", "src/algorithms/proof/pdr.rs: prove", "src/algorithms/bmc.rs: search", "src/models/finite_state_transition_system/construction.rs: from_aig"]}
{"id": "C61", "title": "The provers ask at least one question per step of the shortest counterexample, and not more than a fixed number", "statement": "When IC3Stateless::prove or IC3Stateful::prove reports a counterexample, its counter of SAT calls (printed with the statistics) is larger than the number of steps of the shortest counterexample. When PDR::prove does (where its counterexamples are sound, C42), its statistics count at least as many queries for a predecessor (ExtractModel) as there are steps. So on a circuit whose shortest counterexample has 2^32 - 1 steps or more a debug build of IC3 never answers: the u32 counter overflows and prove panics; a debug build of PDR does so from 2^32 steps on. For every n there is a circuit with n latches on which each prover, with any solvers and random choices, makes at least 2^n SAT calls (PDR: 2^n - 1 queries for a predecessor). Conversely IC3, in both variants, never makes more than 2 + (N+1)^2 ((N+1)(N+2)(N+3+2l) + 3^l) calls on a circuit with l latches, where N = 2^l: for up to six latches that is less than 2^32, so that a debug build answers, too. PDR's five counts together never exceed (N+1)(N+3)(1 + (N(N+1)((N+2)(N+3)+1) + 2)(N+l+3) + (N+1) 3^l), which is less than 2^32 for up to four latches.", "quantifier": "all accepted circuits and systems whose numbering fits, both builds for the count, all correct solvers, all random choices, fuels; all lengths of the shortest counterexample", "why_tests_cant": "lower and upper bounds on the cost over all circuits and all nondeterministic runs; the overflow needs 2^32 SAT calls, which no test makes", "anchors": ["src/algorithms/proof/ic3_stateless_solver.rs: sat_call, prove", "src/algorithms/proof/ic3_stateful_solver.rs: sat_call, prove", "src/algorithms/proof/pdr.rs: z_solve_relative, generalize, rec_block_cube, propagate_blocked_cubes, prove"]}
{"id": "C62", "title": "The invariant of a proof is a formula about the circuit", "statement": "The CNF in ProofResult::Proof names only variables of the circuit, no next-state copies. From the two IC3 provers it consists of clauses about latches, the clauses of get_state_to_safety_translation() and one unit clause for the negation of each bad literal, all of the latter included; so, where gates have their right values, it says that the state satisfies the clauses about latches and that no bad literal is true. From PDR it consists of clauses about latches. check_invariant accepts it not only for the system that was proved but for every system built from the same circuit with the same flag, in either build and with any hash order (for PDR where its proofs are right, C41).", "quantifier": "every accepted file, every sound solver (panics allowed), every random shuffle and hash order, every second system of the circuit; numbering fits (see C25)", "why_tests_cant": "all circuits, all solver answers and random choices; a pair of systems built independently", "anchors": ["src/algorithms/proof/ic3_stateless_solver.rs: get_fk, prove", "src/algorithms/proof/ic3_stateful_solver.rs: get_fk, prove", "src/algorithms/proof/pdr.rs: get_r_i, prove", "src/models/finite_state_transition_system/features.rs: check_invariant"]}
{"id": "C63", "title": "An invariant for the stronger property is accepted for the weaker one", "statement": "If a prover returns Proof{invariant} for the system built with assume_output_is_bad = true, then check_invariant accepts the same invariant for the system of the same graph built with assume_output_is_bad = false, whose bad states are among those of the former.", "quantifier": "every accepted file, every sound solver, every random shuffle and hash order; numbering fits (see C25)", "why_tests_cant": "all circuits and solver answers; relates two systems", "anchors": ["src/algorithms/proof/ic3_stateless_solver.rs: prove", "src/algorithms/proof/pdr.rs: get_r_i", "src/models/finite_state_transition_system/features.rs: check_invariant"]}
{"id": "C64", "title": "Accepted invariants can be reused", "statement": "If one call of check_invariant accepts a CNF for a system, then it accepts it for every system built from the same circuit with the same flag, in either build, with any correct solver and hash order. If two CNFs were accepted, their conjunction (CNF::append) is accepted. A CNF over latches accepted for assume_output_is_bad = true is accepted for assume_output_is_bad = false. Once a CNF was accepted, no BMC search and neither IC3 prover reports a counterexample for the circuit, nor does PDR where its counterexamples are sound (C42).", "quantifier": "every accepted file, every CNF built with the API whose variables fit into two time frames, every sound solver, build, hash order, search limit and random choice; numbering fits (see C25)", "why_tests_cant": "all circuits, formulas and solvers; relates different calls and tools", "anchors": ["src/models/finite_state_transition_system/features.rs: check_invariant", "src/formulas/cnf.rs: append", "src/algorithms/bmc.rs: search", "src/algorithms/proof/pdr.rs: prove"]}
{"id": "C65", "title": "Exactly the safe circuits have an invariant over latches", "statement": "A circuit is safe if and only if there is some CNF over its latches that check_invariant accepts. So restricting certificates to formulas about latches loses nothing.", "quantifier": "every accepted file, both builds, all correct solvers; numbering fits (see C25)", "why_tests_cant": "an equivalence between all infinite behaviours and the existence of a formula", "anchors": ["src/models/finite_state_transition_system/features.rs: check_invariant"]}
{"id": "C66", "title": "Bad literals can be checked together or one by one", "statement": "Take circuits with the same inputs, latches and gates whose bad literals (bad-state literals, and outputs if assumed bad) together are those of a circuit c. If a prover proves c, no prover reports a counterexample for one of them; if each of them is proved, no prover reports a counterexample for c. A counterexample of d steps for one of them: BMC on c finds one of at most d steps or stops before step d. A shortest counterexample of d steps that BMC finds for c: if the others were searched that far, one of them has a counterexample of d steps. CNFs over latches that check_invariant accepts for each of them, appended to each other, are accepted for c. With c itself and the flag: assume_output_is_bad = true is the conjunction of the two properties. (PDR only where its verdicts are sound, C42.)", "quantifier": "every circuit and every way to split its bad literals, all builds, sound solvers, random choices, hash orders, limits and timeouts; numbering fits (see C25)", "why_tests_cant": "relates arbitrarily many runs of different tools on different circuits", "anchors": ["src/models/finite_state_transition_system/construction.rs: create_unsafety_property", "src/algorithms/bmc.rs: search", "src/algorithms/proof/ic3_stateless_solver.rs: prove", "src/algorithms/proof/ic3_stateful_solver.rs: prove", "src/algorithms/proof/pdr.rs: prove", "src/models/finite_state_transition_system/features.rs: check_invariant"]}
{"id": "C67", "title": "Simulation and the algorithms do not contradict each other", "statement": "For a graph g and its transition system: a prover returns Proof if and only if in no simulation of g, whatever the inputs and initial latch values, a bad literal is ever 1. A counterexample depth d of a prover: no simulation shows a bad literal before clock d. A counterexample depth d of BMC: some simulation shows a bad literal at clock d and none shows one before; without counterexample up to depth z, no simulation shows one at a clock <= z. A CNF over the variables of the circuit that check_invariant accepted is true of every vector that simulate returns. (PDR only where its verdicts are sound, C42.)", "quantifier": "every circuit, every graph read from a file for it, all stimuli of any length, all builds, sound solvers, random choices, hash orders, limits and timeouts; numbering fits (see C25)", "why_tests_cant": "quantifies over all simulations of any length and all runs of all algorithms", "anchors": ["src/models/and_inverter_graph/simulation.rs: simulate", "src/algorithms/bmc.rs: search", "src/algorithms/proof/ic3_stateless_solver.rs: prove", "src/algorithms/proof/ic3_stateful_solver.rs: prove", "src/algorithms/proof/pdr.rs: prove", "src/models/finite_state_transition_system/features.rs: check_invariant"]}
{"id": "C68", "title": "Giving latches an initial value keeps proofs", "statement": "Take a circuit c and a circuit c' that differs only in that some latches without initial value in c have reset value 0 or 1 in c'. If a prover proves c, no prover reports a counterexample for c', and check_invariant accepts the invariant of the proof, like every CNF it accepts for c, for c'. If BMC finds a counterexample of d steps for c', BMC on c finds one of at most d steps or stops before step d. If BMC finds a counterexample of d steps for c and c' takes its initial values from the assignment of that counterexample, BMC on c' finds one of exactly d steps or stops before step d. (PDR only where its verdicts are sound, C42.)", "quantifier": "every pair of such circuits, all builds, sound solvers, random choices, hash orders, limits and timeouts; numbering fits (see C25)", "why_tests_cant": "relates runs of different tools on all pairs of circuits of this kind", "anchors": ["src/models/finite_state_transition_system/construction.rs: create_initial_cnf", "src/algorithms/bmc.rs: search", "src/algorithms/proof/ic3_stateless_solver.rs: prove", "src/algorithms/proof/ic3_stateful_solver.rs: prove", "src/algorithms/proof/pdr.rs: prove", "src/models/finite_state_transition_system/features.rs: check_invariant"]}
{"id": "C69", "title": "A circuit that follows another one inherits its counterexamples", "statement": "Let circuit c2 follow circuit c1: there is a relation between the values of their variables such that every initial state of c1 is related to one of c2, every clock step of c1 is matched by one of c2, and c2 is bad whenever c1 is. If a prover proves c2, no prover reports a counterexample for c1. If BMC finds a counterexample of d steps for c1, BMC on c2 finds one of at most d steps or stops before step d. If each follows the other (an optimised version of the circuit, say with equal latches merged), the provers give both the same verdict and BMC finds counterexamples of the same length. (PDR only where its verdicts are sound, C42.)", "quantifier": "every pair of circuits with such a relation, all builds, sound solvers, random choices, hash orders, limits and timeouts; numbering fits (see C25)", "why_tests_cant": "quantifies over all pairs of circuits and all relations between their states", "anchors": ["src/models/finite_state_transition_system/construction.rs: from_aig", "src/algorithms/bmc.rs: search", "src/algorithms/proof/ic3_stateless_solver.rs: prove", "src/algorithms/proof/ic3_stateful_solver.rs: prove", "src/algorithms/proof/pdr.rs: prove"]}
