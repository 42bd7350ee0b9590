# Formal model of rust-formal-verification: design

Prover: Rocq / Coq 8.16.1, standard library only. Sources are in `rocq/theories`,
logical name `Verif`. Properties are listed in `properties.jsonl`, their status in `MANIFEST.json`,
experiments with wrong programs in `seeded/LOG.jsonl`.

## Trusted base

* Coq's kernel (including `vm_compute`, used for concrete witnesses and examples).
* `Print Assumptions` under every property theorem prints "Closed under the global context":
  no axiom is used, neither of the standard library nor of our own.
  `coqchk -o` on all files with property theorems ends with "Axioms: <none>". (A listing of everything that is loaded with
  `lia` may name seven sealed constants of the standard library's `Coq.ssr.ssrunder`; nothing here depends on them.)
* The correspondence between the Gallina model and the Rust text. Every model
  definition carries a comment with the file and lines it transcribes and any simplification.
* The specifications in `Spec*.v`: Boolean truth of literals/clauses/cubes/CNFs, the wire
  semantics of an and-inverter graph, the AIGER encodings, the contracts of external engines.
* The engine contracts are hypotheses of the theorems, not axioms. `Brute.v`, `BruteFacts.v` and
  `RefEngines.v` define brute-force engines and prove that they meet the contracts, so no contract is empty.

## What is modelled

| Rust | Model file |
|---|---|
| (Rust integers, panics, vectors, hash sets) | `Base.v` |
| `src/formulas/*` | `Formulas.v` |
| `src/solvers/sat/assignment.rs`, `sat_response.rs`, `src/algorithms/formula_logic.rs` | `FormulaLogic.v` |
| `src/solvers/sat/stateless/*`, `stateful/*` | `Solvers.v` |
| `src/models/and_inverter_graph/*` | `Aig.v`, `AigParse.v`, `AigPrint.v` |
| `src/models/finite_state_transition_system/*` | `Fsts.v` |
| `src/algorithms/bmc.rs` | `Bmc.v` |
| `src/algorithms/proof/ic3_stateless_solver.rs`, `ic3_stateful_solver.rs` | `Ic3.v` |
| `src/algorithms/proof/pdr.rs` | `Pdr.v` |

Conventions.

* A Rust function is a total Gallina function into `res A = Ok a | Panic | OutOfFuel`.
  `Panic` covers `panic!`, `assert!`, `unwrap` on `None`, indexing out of bounds, and, in a
  debug build, `debug_assert!` and integer overflow. The build profile is an argument
  (`Debug | Release`); in `Release` the arithmetic wraps as in Rust.
* `while`/`loop` with no structural bound take fuel; `OutOfFuel` is never a normal answer and the
  termination theorems show that enough fuel exists.
* `u32`/`usize` values are `N`, `i32` values are `Z`; frame indices are `nat`.
* A `HashSet` is a duplicate-free list whose order is unobservable: code that iterates over one goes
  through an arbitrary permutation chosen by an environment argument, and theorems quantify over it.
* The `u32` counters of SAT calls in the provers only grow and are only printed: the model counts in `nat` and
  checks for the overflow, which panics in a debug build, when `prove` is done (`sat_calls_fit`, `stats_fit`).
* Random shuffles, hash iteration order, priority-queue tie-breaks, SAT models, and time are arguments
  (an environment indexed by a call counter), constrained only by contracts that appear as
  hypotheses in the theorem statements (a shuffle is a permutation; a solver is sound and complete).

Not modelled.

* File system access: `from_aig_path` starts at the byte vector.
* Threads: a timed SAT call is "answer or timeout", chosen by the environment.
* Printing of progress and statistics, and wall-clock fields.
* Memory exhaustion below the `isize::MAX` allocation limit.
* The internals of CaDiCaL, MiniSat, Splr and Varisat (contracts), including limits they have of their own
  (Varisat's variable limit and MiniSat's C integer variables) and the tests each solver file contains.
* What CaDiCaL does with `i32::MIN` or 0 handed over after a wrap-around in a release build: the contract says
  nothing about such calls, so the release theorems exclude them.
* The programs under `tests/`; `RepoTests.v` replays their expected values on the model.

How the model was compared with the code. `RepoTests.v` holds the doc tests and the deterministic integration tests of the
repository, with the values their authors expect, evaluated on the model (formula texts, getters, cones, the three counter
files and their transition systems, BMC's counterexamples, provers). Outside the build, the model's parser and printer were
also run on all 90 binary files of `tests/examples` with fewer than 6000 bytes: the result was the neighbouring `.aag` file,
byte for byte, each time.

## Specification files

* `Spec.v`: truth values of formulas, legal literals, contracts of stateless and stateful solvers.
* `SpecText.v`: a DIMACS reader.
* `SpecSolver.v`: contracts of the four engines, histories of stateful calls.
* `SpecAig.v`: circuits, their well-formedness and wire semantics; `represents` (what the getters of a graph
  must return); fan-in relation; traces.
* `SpecAiger.v`: the AIGER 1.9 binary encoder, an `.aag` reader, symbol tables.
* `SpecFile.v`: the grammar of binary AIGER files in every spelling, as a relation between bytes and circuit, symbols
  and comment.
* `SpecFsts.v`: what an assignment says about latches and inputs, initial states, steps, badness.
* `SpecBuild.v`: agreement of a debug run and a release run, the two builds of each solver adapter.
* `SpecEnd.v`: the solvers of the crate, and what a right verdict is.
* `SpecOrder.v`: the order of literals and the lexicographic order.
* `SpecRename.v`: circuits with the same logic behind the bad literals, up to numbering.
* `SpecAlg.v`: runs, reachability of bad states, shortest counterexample, prover verdicts.

The properties are in `Prop*.v`; each theorem there is closed by a lemma of a `*Facts.v`, `*Core.v` or `*Thms.v`
file and followed by `Print Assumptions`. Examples named `*_case` show a non-trivial instance.

## Result per property

"Refuted" means that the full statement is false of the code: a theorem with suffix `_refuted` gives a concrete
run, and a theorem with suffix `_partial` proves the property under the exact or nearly exact extra condition.

* C01-C05 (formulas): algebraic lemmas about the `u32` encoding, insertion sort, list-sets; C04 by induction
  over an operation history. C48: induction over the clause list.
* C06: a DIMACS reader is written as specification and proved to invert the printer.
* C07, C08: direct; C08 quantifies over iteration orders and completions.
* C09, C10: any solver meeting the stateless contract; the answers are also right with a solver that may panic and whose
  models may leave variables out (`RescueThms.v`).
* C11: full for Splr and Varisat. Refuted for CaDiCaL: the adapter computes `max_variable() + 1` in `i32`, so for
  variable 2^31-1 a debug build panics and a release build returns an empty assignment. Proved below that variable.
* C12 (MiniSat): invariant over all call histories, refinement to "a list of clauses".
* C13 (CaDiCaL): same, as long as largest variable + number of temporary clauses is at most 2^31-3; refuted beyond,
  because the literal counter is an `i32` that is never reset. A debug build then panics, so every answer it gives
  is right for every history (`CadicalFacts.v`).
* C14-C16: the AIGER encoder is the specification; parse after encode gives the circuit back; parse success implies
  well-formedness, by an invariant along the parser.
* C17: an `.aag` reader recovers the circuit from the printed text. C18: refuted when two positions share a node
  (symbols are stored per node); proved when they do not.
* C49: the accepted byte strings are exactly those of the grammar in `SpecFile.v`; each parser function is inverted
  in both directions (`FileFacts.v`, `GrammarFacts.v`, `TailFacts.v`).
* C19: inductive fan-in relation, worklist invariant.
* C20: wire semantics as a relation on traces; simulation satisfies it, and it determines all wires.
* C21: refuted (the pre-check compares a reset literal with a latch index); proved under the condition it
  really tests, and the accepted stimuli are characterised exactly.
* C22-C24, C26-C28: satisfaction of the generated CNFs related to wire semantics. In release builds C23 and C29 need the
  next-state numbers to fit into 31 bits (`next_fits`) and C24 needs bad literals that are not constants (`bad_fits`);
  a debug build checks both. C22, C27, C28 and C30 need neither.
* C25: refuted for constant bad literals, and for release builds also by a circuit with 2^30 inputs whose next-state
  literal is truncated to that of an input. Acceptance is characterised exactly in both builds; from_aig is total and
  numbers correctly when the variables fit twice in 31 bits and no bad literal is constant.
* C29: proved. C30: refuted when a bad literal is a latch (the safety cone forgets latches that are bad literals
  themselves); proved when every such latch is also read by a gate below the bad literals. For both projections the
  latches they keep are characterised exactly.
* C31: inductive invariant argument over runs, and the converse for invariants over latches. Acceptance is sound also
  with a solver that may panic. Over latches exactly the inductive safe formulas are accepted (`InvComb.v`).
* C32-C34 (BMC): unrolling lemma; induction on depth; replay through `simulate`.
* C35-C40 (IC3): one core (`Ic3Core.v`) over an interface of queries, instantiated for the stateless and the stateful
  prover. Frame invariants (initiation, monotonicity, consecution, safety of all but the last frame), obligations are
  states that reach a bad state, termination by counting, per frame, the states not yet excluded.
  Stateless solvers have to be correct only for variables below 2^31-1, which the CaDiCaL adapter is (C11).
  In the soundness and always-stops theorems of C35-C46 the solver may panic and its models may leave variables out
  (`solver_sound_below`, `stateful_sound`), so that they cover the CaDiCaL adapter in a debug build: a run of the
  prover is simulated by the run with a solver that goes on by brute force where the given one panics and completes
  its models (`ReplaceFacts.v`, `SoundThms.v`).
  C37/C40 are partial for two reasons. The depth is converted to `u32`: with a shortest counterexample of
  2^32 steps or more that conversion may panic; badness must depend on more than 32 latches for that (C59). It
  does panic, in both builds, on a circuit of 35 latches with certain random choices (`SlowGen.v`, `SlowOrder.v`,
  `SlowRun.v`, `SlowThms.v`): generalization at frame k then keeps only the literals that exclude the numbers having all
  bits of k+1; such a clause cannot be pushed to the next frame, so that every number counted costs a frame. With other
  choices fewer frames may do (C45), hence the word "may". And a debug
  build panics when its counter of SAT calls overflows: the theorems say that it does so exactly when the counter, taken
  without a limit, ends at 2^32 or more (`counted_answer`); with at most six latches it cannot (C61, `CallLimit.v`). For
  debug builds the full claim is refuted with a 32-bit counter circuit (`CounterThms.v`), by C61. The proofs of C35-C40
  are about provers without counters (`Plain.v`), to which the provers are linked.
  Fuel only stands for unbounded loops: a result reached with some fuel is reached with any larger one
  (`FuelFacts.v`; also for PDR, C43), so the choice of `enough_fuel` does not matter.
* C41-C43 (PDR): frame and obligation invariants (`PdrCore.v`, `PdrQuery.v`, `PdrSteps.v`, `PdrThms.v`) under the
  condition that excludes the C30 defect; refuted without it: wrong proofs (release), wrong counterexamples (both builds),
  panics. PDR also panics in both builds when a bad literal is an input beside latches without reset value. It stops,
  perhaps with a panic, on every circuit. A debug build also panics on a 33-bit counter, where a `u32` count of SAT calls
  overflows (C61); with at most four latches no count can (`PdrLimit.v`). As for IC3, the `u32` conversion of the depth
  panics in both builds on a circuit of 35 latches with certain random choices (`LongGen.v`, `LongOrder.v`, `LongRun.v`,
  `LongThms.v`).
* C44: corollary of soundness and termination (`ProverThms.v`); refuted for PDR with the C42 witness.
* C45: refuted (an obligation may be found at a frame nearer than the real distance); the reported depth is a lower bound.
  IC3's is exact for counterexamples of at most one step and too small for all others (`C45_ic3_depth`); PDR's is exact
  for the former as well.
* C46: refuted (`TwiceThms.v`): second calls are characterised completely; debug IC3 panics unless a counterexample of
  at most one step exists, PDR always panics, release IC3 returns the right verdict again.
* C47: refuted: the check `params.len() < 10` rejects the complete ten-field header; shorter headers are accepted.
* C50: debug and release runs are related function by function (`BuildFacts.v`): a debug run panics, runs out of fuel,
  or the release run gives the same result. The debug-only solver calls of the stateful IC3 change only a solver that
  nothing else reads. Both runs get the same hash orders, random choices, clock and engines.
* C51: composition of C11-C13, C25, C32-C43 and C49 (`EndThms.v`), stated for byte strings of the grammar and for the
  adapters over engines that keep their contracts. Partial: it leaves out the stateful CaDiCaL adapter in release builds
  beyond a budget of variables (`C51_cadical_budget_partial`: a solver that stops with a panic past its budget; C13),
  numbers that do not fit (C25), constant bad literals in release builds, and PDR with a latch as bad literal that no gate
  below the bad literals reads (C41, C42).  Constant bad literals (`ConstThms.v`): a debug build panics in `from_aig`; a
  release build turns the constant into variable 0, which both stateful adapters treat as an ordinary variable, so PDR
  reports a counterexample of depth 0 for every such circuit whose latches all have reset values (even a safe one,
  `C51_constant_bad_refuted`), and both IC3 provers panic when they are created because the tagging asserts that no
  variable is 0.
* C52: independent readers of `SpecText.v` applied to the printed text (`DisplayThms.v`).
* C53: the gate encoding is a map over the gates followed by insertions into a set; permuted gate lists give the same
  set (`OrderThms.v`).
* C54: the two constructions differ only in the list of bad literals; hash orders by C53; acceptance from the exact
  characterisations of C25 (`StableThms.v`).
* C55: a longer loop does what a shorter one does unless all depths of the shorter one are unsatisfiable (`bmc_loop_more`);
  the part about different solvers follows from C32 and C33. The clock is a function of the depth, so "same clock
  behaviour" means the same timeouts at the same depths.
* C56: prefix by unfolding the loop; the rest from C20, since inputs and latches determine all wires.
* C57: C20, C23, C24 and C26 put together, in both directions (`UnrollThms.v`).
* C58: the derived orders of literals, clauses and cubes against a specification of lexicographic order (`SpecOrder.v`).
* C59: pigeonhole over the values of the latches in the cone of influence; a run is spliced where they repeat and the
  rest of the state is recomputed (`ConeThms.v`). The bound is reached by counters of every width (`CounterGen.v`).
* C60: runs are carried over along the renaming in both directions, recomputing what lies outside the cone of
  influence (`RenameThms.v`); then soundness of the verdicts on both sides. The cone need not be decided: from the
  first to the second circuit the carried-over run is only shown not to be absent, which is enough for safety.
* C61: every obligation in the queue is tied to a state that reaches a bad state in fewer steps than calls were made so
  far, because each earlier state is the answer of one further call (`CallBound.v`; for PDR, with cubes of states, `PdrCalls.v`).
  The circuits of the overflow and of the exponential bound are ripple counters of any width (`CounterGen.v`,
  `CounterCalls.v`); the value at clock t is shown to be t by induction over the bits and over t.
  Upper bound for IC3 (`CallUpper.v`, `CallLimit.v`): each loop's cost is bounded by its fuel, the fuel can be replaced by
  the bounds of the termination proof (`FuelFacts.v`), and a frame holds at most 3^l clauses, because each mentions a
  latch at most once. The same for PDR (`PdrUpper.v`, `PdrLimit.v`), where adding a cube to a frame removes an equal one.
* C62: the frame invariants of the soundness proofs already say which clauses a frame of IC3 may hold and that PDR's
  frames hold cubes of latches (`SpecInv.v`, `InvThms.v`). Acceptance by another system of the same circuit follows from
  C31 and from the fact that both systems have the same variables and gate clauses.
* C63: holds for PDR where its proofs are right (C41) and is refuted for IC3: the invariant contains the clauses of
  gates that only outputs depend on, which the other system does not constrain. The exact condition for IC3 is proved:
  every gate below an output must be below a bad literal too.
* C64: `check_invariant` is characterised by three conditions on valuations that depend on the circuit only
  (`InvComb.v`); conjunction, other systems and the absence of counterexamples follow from them.
* C65: from a safe circuit IC3 with the reference solver gets an invariant; the clauses for bad literals and gates in it
  are replaced by clauses that exclude each state from which some input shows a bad literal. The other direction is C31.
* C66: runs depend on inputs, latches and gates only, and a state is bad if it is bad for some part (`SpecParts.v`,
  `PartsThms.v`); then soundness of the verdicts, of BMC (C32, C33) and the exact form of C31 for latches.
* C67: every simulation is the beginning of a run and every beginning of a run is simulated (`SpecSim.v`, `SimThms.v`,
  from C20 and the replay lemma behind C32); then soundness of the verdicts, of BMC, and of accepted candidates (C31).
* C68: every run of the circuit with more initial values is a run of the other one, and the formulas of the two systems
  agree but for the initial cube (`SpecReset.v`, `ResetThms.v`); the run behind a counterexample starts with the values of
  its assignment (C32).
* C69: a run of the first circuit is matched clock by clock, by induction on its length, by the beginning of a run of the
  second (`SpecRefine.v`, `RefineThms.v`); then soundness of the verdicts and of BMC.

## Wrong programs

`seeded/LOG.jsonl` records edits of the model in a scratch copy. For hand-written edits, every lemma whose proof breaks
is admitted there and `theorems_failed` lists the property theorems that then depend on an admitted lemma. So a listed
theorem is one whose proof does not go through for the edited model; that its statement is false is not shown by the
experiment. Some edits are repairs or renamings that keep a claim true; the log says so where that is the case.
