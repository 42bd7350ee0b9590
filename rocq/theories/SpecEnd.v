(** The crate used from one end to the other: an AIGER file, one of the solvers that come with
    the crate, one of the algorithms. *)
From Verif Require Import Base Formulas FormulaLogic Solvers Ic3 Spec SpecAig SpecFsts SpecAlg SpecSolver.
Open Scope N_scope.

(** The stateless solvers of the crate, over engines that keep their contracts.  The models of
    the first two are known to give a value to every variable. *)
Inductive complete_stateless (b : build) : StatelessSolver -> Prop :=
| with_cadical E order : order_ok order -> cadical_ok E ->
    complete_stateless b (cadical_solve_cnf b E order)
| with_splr E order : order_ok order -> splr_ok E ->
    complete_stateless b (splr_solve_cnf b E order).
Inductive shipped_stateless (b : build) : StatelessSolver -> Prop :=
| with_complete T : complete_stateless b T -> shipped_stateless b T
| with_varisat E order : order_ok order -> varisat_ok E ->
    shipped_stateless b (varisat_solve_cnf b E order).

(** The stateful solvers of the crate.  The CaDiCaL adapter is only known to be right without
    a bound on the number of calls in a debug build (property C13). *)
Inductive complete_stateful (b : build) : StatefulSolver -> Prop :=
| with_minisat E order : order_ok order -> minisat_ok E ->
    complete_stateful b (minisat_stateful b E order).
Inductive shipped_stateful : build -> StatefulSolver -> Prop :=
| with_complete_stateful b SS : complete_stateful b SS -> shipped_stateful b SS
| with_cadical_stateful E order : order_ok order -> cadical_ok E ->
    shipped_stateful Debug (cadical_stateful Debug E order).

(** A prover's answer is right: a proof is an inductive safe invariant of a safe circuit, a
    counterexample is reported for an unsafe circuit and no run is bad before its depth. *)
Definition right_verdict (c : circuit) (flag : bool) (r : ProofResult) : Prop :=
  match r with
  | Proof inv => safe c flag /\ inductive_safe c flag (fun w => cnf_true w inv)
  | ProofCTX d => unsafe c flag /\ safe_before c flag (N.to_nat d)
  end.

(** A stateful solver that panics as soon as the largest variable mentioned plus the number of
    temporary clauses exceeds [B], and otherwise does what [SS] does.  Only used to say that a
    run keeps every solver within this budget: it does not panic with [budgeted B SS]. *)
Definition budgeted (B : N) (SS : StatefulSolver) : StatefulSolver :=
  mkStatefulSolver (ss_state SS * N * N) (fun h => (ss_new SS h, 0, 0))
    (fun st f => let '(x, m, k) := st in
       let m := N.max m (max_var (cnf_clauses f)) in
       if m + k <=? B then x <- ss_add_cnf SS x f ;; Ok (x, m, k) else Panic)
    (fun st cube clause => let '(x, m, k) := st in
       let m := N.max m (max_var (temp_clauses cube clause)) in
       let k := match clause with Some _ => k + 1 | None => k end in
       if m + k <=? B
       then p <- ss_solve SS x cube clause ;; Ok (fst p, (snd p, m, k)) else Panic).
